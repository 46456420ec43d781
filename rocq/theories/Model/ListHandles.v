(** * Model of the public access through pointers of src/collections/linked_list.rs *)
From Coq Require Import ZArith List Bool.
From Verif Require Import Model.Base Model.LinkedList.
Import ListNotations.
Open Scope Z_scope.

Section Handles.
Context {T : Type}.
(** linked_list.rs:150-152.  [get] ([slice::get]; a [Ptr] is a u32, so not negative). *)
Definition ll_get (l : llist T) (i : Z) : option (node T) := nth_error (ll_memory l) (Z.to_nat i).
(** collections.rs:72-74.  [get(i).and_then(|n| n.data())]. *)
Definition ll_data (l : llist T) (i : Z) : option T :=
  match ll_get l i with Some n => nd_data n | None => None end.
(** linked_list.rs:154-156, collections.rs:76-82.  [if let Some(n) = get_mut(i) { n.set_data(x) }]. *)
Definition ll_set_data (l : llist T) (i : Z) (x : T) : llist T :=
  match ll_get l i with
  | Some n => set_memory l (replace_nth (Z.to_nat i) (ll_memory l) (mkNode (Some x) (nd_left n) (nd_right n)))
  | None => l
  end.
End Handles.
