(** * Model of src/collections/stack.rs

    [CircularStack<T>] holds a [T; 4]; the model is generic in [T] and takes
    [T::default()] as the argument of [cs_new]. *)
From Coq Require Import ZArith List Bool.
From Verif Require Import Model.Base.
Import ListNotations.
Open Scope Z_scope.

(** stack.rs:8-12.  [data : [T; 4]], [cursor : u32], [len : u32]. *)
Record cstack (T : Type) := mkCS { cs_data : list T; cs_cursor : Z; cs_len : Z }.
Arguments mkCS {T}. Arguments cs_data {T}. Arguments cs_cursor {T}. Arguments cs_len {T}.

Section Stack.
Context {T : Type}.

(** stack.rs:18-24.  [new]. *)
Definition cs_new (default : T) : cstack T := mkCS (repeat default 4) 0 0.

(** stack.rs:30-32.  [is_empty] (as written: compares with the array length). *)
Definition cs_is_empty (s : cstack T) : bool := 4 <=? cs_len s.

(** stack.rs:34-40.  [push]. *)
Definition cs_push (s : cstack T) (item : T) : cstack T :=
  let idx := Z.land (cs_cursor s) 3 in
  mkCS (replace_nth (Z.to_nat idx) (cs_data s) item)
       (Z.land (cs_cursor s + 1) 3)
       (Z.min (cs_len s + 1) 4).

(** stack.rs:42-48.  [pop].  The array has 4 elements and the index is masked, so
    indexing cannot fail; [d] stands for the unreachable default of [nth]. *)
Definition cs_pop (d : T) (s : cstack T) : cstack T * T :=
  let cursor := Z.land (cs_cursor s + 4 - 1) 3 in
  let len := Z.max (cs_len s - 1) 0 in
  (mkCS (cs_data s) cursor len, nth (Z.to_nat cursor) (cs_data s) d).

(** stack.rs:51-55.  [prev(offset)]. *)
Definition cs_prev (d : T) (s : cstack T) (offset : Z) : T :=
  let clamped := zclamp offset 0 (cs_len s) in
  let idx := Z.land (cs_cursor s + 4 - clamped) 3 in
  nth (Z.to_nat idx) (cs_data s) d.
End Stack.
