(** * Words for the theorems about indexing a ring buffer *)
From Coq Require Import ZArith List Bool.
From Verif Require Import Model.Base Spec.Collections.
Import ListNotations.
Open Scope Z_scope.

(** A deque whose items lie in a circle of [cap] places, the first at place [first]. *)
Record circle (T : Type) := mkCircle { items : list T; first : Z }.
Arguments mkCircle {T}. Arguments items {T}. Arguments first {T}.
(** Which item lies at place [i] of the circle. *)
Definition item_at {T} (cap : Z) (c : circle T) (i : Z) : Z := (i - first c) mod cap.

Inductive circle_op (T : Type) := Deque (op : deque_op T) | Write (i : Z) (x : T).
Arguments Deque {T}. Arguments Write {T}.
(** The deque does what deques do.  An item put in front lies one place before the first; when the first item is taken the next place is first. *)
Definition turn {T} (cap : Z) (c : circle T) (op : deque_op T) : Z :=
  match op with
  | PushFront _ => if zlen (items c) <? cap then (first c - 1) mod cap else first c
  | PopFront => match items c with [] => first c | _ :: _ => (first c + 1) mod cap end
  | Clear => 0
  | _ => first c
  end.
(** Writing to a place of the circle where an item lies changes that item, and nothing else. *)
Definition change {T} (n : nat) (l : list T) (x : T) : list T :=
  if (n <? length l)%nat then List.firstn n l ++ x :: List.skipn (S n) l else l.
Definition circle_do {T} (cap : Z) (c : circle T) (op : circle_op T) : circle T * answer T :=
  match op with
  | Deque op => let '(l, a) := deque_do cap (items c) op in (mkCircle l (turn cap c op), a)
  | Write i x => (if i <? cap then mkCircle (change (Z.to_nat (item_at cap c i)) (items c) x) (first c) else c, ANothing)
  end.
Fixpoint circle_run {T} (cap : Z) (c : circle T) (ops : list (circle_op T)) : circle T * list (answer T) :=
  match ops with
  | [] => (c, [])
  | op :: ops => let '(c, a) := circle_do cap c op in let '(c, l) := circle_run cap c ops in (c, a :: l)
  end.
