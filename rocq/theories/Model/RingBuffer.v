(** * Model of src/collections/queue.rs

    The generic [BACKING] is a list; indexing outside it panics, as it does for arrays
    and [Vec].  The pop operations return the element by value (the code returns a
    reference to it). *)
From Coq Require Import ZArith List Bool.
From Verif Require Import Model.Base Model.BitStream.
Import ListNotations.
Open Scope Z_scope.

(** queue.rs:6-13.  [FixedRingBuffer]. *)
Record ring (T : Type) := mkRing {
  rb_backing : list T; rb_front : Z; rb_rear : Z; rb_len : Z; rb_capacity : Z }.
Arguments mkRing {T}. Arguments rb_backing {T}. Arguments rb_front {T}.
Arguments rb_rear {T}. Arguments rb_len {T}. Arguments rb_capacity {T}.

(** [u32::count_ones]. *)
Definition count_ones32 (x : Z) : Z :=
  fold_left (fun acc i => acc + Z.b2z (Z.testbit x (Z.of_nat i))) (seq 0 32) 0.

Section Ring.
Context {T : Type}.
Implicit Types r : ring T.

(** queue.rs:17-29.  [new]: the capacity must have exactly one bit set. *)
Definition rb_new (backing : list T) (capacity : Z) : outcome (ring T) :=
  if count_ones32 capacity =? 1 then Ok (mkRing backing 0 0 0 capacity)
  else Panic InvalidState.

(** queue.rs:40-46.  [is_full], [is_empty]. *)
Definition rb_is_full (r : ring T) : bool := rb_capacity r <=? rb_len r.
Definition rb_is_empty (r : ring T) : bool := rb_len r =? 0.

(** queue.rs:50, 60, 73, 80.  The masked index arithmetic, all u32. *)
Definition rb_before (p : profile) (r : ring T) (i : Z) : outcome Z :=
  a <- uchk p 32 (i + rb_capacity r) ;;
  a <- uchk p 32 (a - 1) ;;
  m <- uchk p 32 (rb_capacity r - 1) ;;
  Ok (Z.land a m).
Definition rb_after (p : profile) (r : ring T) (i : Z) : outcome Z :=
  a <- uchk p 32 (i + 1) ;;
  m <- uchk p 32 (rb_capacity r - 1) ;;
  Ok (Z.land a m).

(** queue.rs:48-55.  [push_front]. *)
Definition rb_push_front (p : profile) (r : ring T) (item : T) : outcome (ring T) :=
  if rb_is_full r then Ok r
  else
    front <- rb_before p r (rb_front r) ;;
    b <- store (rb_backing r) front item ;;
    len <- uchk p 32 (rb_len r + 1) ;;
    Ok (mkRing b front (rb_rear r) len (rb_capacity r)).

(** queue.rs:57-67.  [pop_front]. *)
Definition rb_pop_front (p : profile) (r : ring T) : outcome (ring T * option T) :=
  if rb_is_empty r then Ok (r, None)
  else
    front <- rb_after p r (rb_front r) ;;
    len <- uchk p 32 (rb_len r - 1) ;;
    item <- index (rb_backing r) (rb_front r) ;;
    Ok (mkRing (rb_backing r) front (rb_rear r) len (rb_capacity r), Some item).

(** queue.rs:69-76.  [push_rear]. *)
Definition rb_push_rear (p : profile) (r : ring T) (item : T) : outcome (ring T) :=
  if rb_is_full r then Ok r
  else
    b <- store (rb_backing r) (rb_rear r) item ;;
    rear <- rb_after p r (rb_rear r) ;;
    len <- uchk p 32 (rb_len r + 1) ;;
    Ok (mkRing b (rb_front r) rear len (rb_capacity r)).

(** queue.rs:78-88.  [pop_rear]. *)
Definition rb_pop_rear (p : profile) (r : ring T) : outcome (ring T * option T) :=
  if rb_is_empty r then Ok (r, None)
  else
    rear <- rb_before p r (rb_rear r) ;;
    len <- uchk p 32 (rb_len r - 1) ;;
    item <- index (rb_backing r) rear ;;
    Ok (mkRing (rb_backing r) (rb_front r) rear len (rb_capacity r), Some item).

(** queue.rs:89-97.  [iter], collected. *)
Definition rb_iter (p : profile) (r : ring T) : outcome (list T) :=
  mapM (fun offset =>
          i <- uchk p 32 (rb_front r + offset) ;;
          if rb_capacity r =? 0 then Panic DivisionByZero
          else index (rb_backing r) (i mod rb_capacity r)) (range (rb_len r)).

(** queue.rs:99-103.  [clear]. *)
Definition rb_clear (r : ring T) : ring T :=
  mkRing (rb_backing r) 0 0 0 (rb_capacity r).
End Ring.
