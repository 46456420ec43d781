(** * Model of the [Index] and [IndexMut] impls of [FixedRingBuffer] and [CircularStack]

    They go to the storage as it is; indexing outside it panics. *)
From Coq Require Import ZArith List.
From Verif Require Import Model.Base Model.RingBuffer Model.CircularStack.
Import ListNotations.
Open Scope Z_scope.

(** queue.rs:106-114.  [buffer[i]]. *)
Definition rb_index {T} (r : ring T) (i : Z) : outcome T := index (rb_backing r) i.
(** queue.rs:116-123.  [buffer[i] = x]. *)
Definition rb_index_set {T} (r : ring T) (i : Z) (x : T) : outcome (ring T) :=
  b <- store (rb_backing r) i x ;;
  Ok (mkRing b (rb_front r) (rb_rear r) (rb_len r) (rb_capacity r)).

(** stack.rs:58-63.  [stack[i]]. *)
Definition cs_index {T} (s : cstack T) (i : Z) : outcome T := index (cs_data s) i.
(** stack.rs:65-69.  [stack[i] = x]. *)
Definition cs_index_set {T} (s : cstack T) (i : Z) (x : T) : outcome (cstack T) :=
  d <- store (cs_data s) i x ;;
  Ok (mkCS d (cs_cursor s) (cs_len s)).
