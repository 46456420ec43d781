(** * Model of src/collections/linked_list.rs and of Node/Ptr in src/collections.rs *)
From Coq Require Import ZArith List Bool.
From Verif Require Import Model.Base.
Import ListNotations.
Open Scope Z_scope.

(** collections.rs:29, 53.  [Ptr(u32)] is its number; [NULL = Ptr(!0)]. *)
Definition NULL : Z := 2 ^ 32 - 1.

(** collections.rs:56-59.  [Node<T, 2>]: [children[0]] is left, [children[1]] is right. *)
Record node (T : Type) := mkNode { nd_data : option T; nd_left : Z; nd_right : Z }.
Arguments mkNode {T}. Arguments nd_data {T}. Arguments nd_left {T}. Arguments nd_right {T}.

(** linked_list.rs:6-9.  [InsertDirection]. *)
Inductive direction := DLeft | DRight.

(** linked_list.rs:18-24.  [LinkedList]. *)
Record llist (T : Type) := mkLL {
  ll_memory : list (node T); ll_front : Z; ll_rear : Z; ll_pool : Z; ll_len : Z }.
Arguments mkLL {T}. Arguments ll_memory {T}. Arguments ll_front {T}.
Arguments ll_rear {T}. Arguments ll_pool {T}. Arguments ll_len {T}.

Section LinkedList.
Context {T : Type}.
Implicit Types l : llist T.

(** linked_list.rs:27-35.  [new]. *)
Definition ll_new : llist T := mkLL [] NULL NULL NULL 0.

Definition set_memory (l : llist T) (m : list (node T)) : llist T :=
  mkLL m (ll_front l) (ll_rear l) (ll_pool l) (ll_len l).

(** linked_list.rs:176-186.  [self[ptr]], reading and writing. *)
Definition ll_at (l : llist T) (i : Z) : outcome (node T) := index (ll_memory l) i.
Definition ll_put (l : llist T) (i : Z) (n : node T) : outcome (llist T) :=
  m <- store (ll_memory l) i n ;; Ok (set_memory l m).

(** [self[i].children[0] = v], [self[i].children[1] = v]. *)
Definition set_left (l : llist T) (i v : Z) : outcome (llist T) :=
  n <- ll_at l i ;; ll_put l i (mkNode (nd_data n) v (nd_right n)).
Definition set_right (l : llist T) (i v : Z) : outcome (llist T) :=
  n <- ll_at l i ;; ll_put l i (mkNode (nd_data n) (nd_left n) v).
Definition set_child (d : direction) : llist T -> Z -> Z -> outcome (llist T) :=
  match d with DLeft => set_left | DRight => set_right end.
Definition get_child (d : direction) (n : node T) : Z :=
  match d with DLeft => nd_left n | DRight => nd_right n end.
Definition opposite (d : direction) : direction :=
  match d with DLeft => DRight | DRight => DLeft end.

(** linked_list.rs:130-142.  [allocate]: reuse the pool, else push; the index is
    truncated to u32. *)
Definition ll_allocate (l : llist T) (item : T) : outcome (llist T * Z) :=
  if ll_pool l =? NULL then
    let m := ll_memory l ++ [mkNode (Some item) NULL NULL] in
    Ok (set_memory l m, uwrap 32 (zlen m - 1))
  else
    let reused := ll_pool l in
    n <- ll_at l reused ;;
    let l := mkLL (ll_memory l) (ll_front l) (ll_rear l) (nd_right n) (ll_len l) in
    l <- ll_put l reused (mkNode (Some item) NULL NULL) ;;
    Ok (l, reused).

(** linked_list.rs:144-148.  [free]. *)
Definition ll_free (l : llist T) (i : Z) : outcome (llist T * option T) :=
  n <- ll_at l i ;;
  l' <- ll_put l i (mkNode None NULL (ll_pool l)) ;;
  Ok (mkLL (ll_memory l') (ll_front l') (ll_rear l') i (ll_len l'), nd_data n).

(** linked_list.rs:63-95.  [remove_at]. *)
Definition ll_remove_at (p : profile) (l : llist T) (i : Z) : outcome (llist T * option T) :=
  if ll_len l =? 0 then Ok (l, None)
  else if ll_len l =? 1 then
    let r := ll_rear l in
    let f := ll_front l in
    if negb (f =? r) then Panic InvalidState
    else ll_free (mkLL (ll_memory l) NULL NULL (ll_pool l) 0) r
  else
    n <- ll_at l i ;;
    let left := nd_left n in
    let right := nd_right n in
    l <- set_right l left right ;;
    l <- set_left l right left ;;
    l <- (if i =? ll_front l then
            f <- ll_at l (ll_front l) ;;
            Ok (mkLL (ll_memory l) (nd_right f) (ll_rear l) (ll_pool l) (ll_len l))
          else Ok l) ;;
    l <- (if i =? ll_rear l then
            r <- ll_at l (ll_rear l) ;;
            Ok (mkLL (ll_memory l) (ll_front l) (nd_left r) (ll_pool l) (ll_len l))
          else Ok l) ;;
    len <- uchk p 32 (ll_len l - 1) ;;
    ll_free (mkLL (ll_memory l) (ll_front l) (ll_rear l) (ll_pool l) len) i.

(** linked_list.rs:97-128.  [insert_at]. *)
Definition ll_insert_at (p : profile) (l : llist T) (i : Z) (d : direction) (item : T)
  : outcome (llist T) :=
  if ll_len l =? 0 then
    '(l, n) <- ll_allocate l item ;;
    nd <- ll_at l n ;;
    l <- ll_put l n (mkNode (nd_data nd) n n) ;;
    len <- uchk p 32 (ll_len l + 1) ;;
    Ok (mkLL (ll_memory l) n n (ll_pool l) len)
  else if i =? NULL then Ok l
  else
    '(l, n) <- ll_allocate l item ;;
    nd <- ll_at l i ;;
    let adj := get_child d nd in
    l <- set_child d l i n ;;
    l <- set_child (opposite d) l adj n ;;
    l <- set_child (opposite d) l n i ;;
    l <- set_child d l n adj ;;
    let l := match d with
             | DLeft => if i =? ll_front l
                        then mkLL (ll_memory l) n (ll_rear l) (ll_pool l) (ll_len l) else l
             | DRight => if i =? ll_rear l
                         then mkLL (ll_memory l) (ll_front l) n (ll_pool l) (ll_len l) else l
             end in
    len <- uchk p 32 (ll_len l + 1) ;;
    Ok (mkLL (ll_memory l) (ll_front l) (ll_rear l) (ll_pool l) len).

(** linked_list.rs:48-61.  [push_front], [push_rear], [pop_rear], [pop_front]. *)
Definition ll_push_front (p : profile) (l : llist T) (item : T) : outcome (llist T) :=
  ll_insert_at p l (ll_front l) DLeft item.
Definition ll_push_rear (p : profile) (l : llist T) (item : T) : outcome (llist T) :=
  ll_insert_at p l (ll_rear l) DRight item.
Definition ll_pop_front (p : profile) (l : llist T) : outcome (llist T * option T) :=
  ll_remove_at p l (ll_front l).
Definition ll_pop_rear (p : profile) (l : llist T) : outcome (llist T * option T) :=
  ll_remove_at p l (ll_rear l).

(** linked_list.rs:188-214.  [LinkedListIterator]: [count] nodes starting at [i]; the
    successor of the last node is fetched too (it is always there). *)
Fixpoint ll_walk (l : llist T) (count : nat) (i : Z) : outcome (list Z) :=
  match count with
  | O => Ok []
  | S count =>
      n <- ll_at l i ;;
      rest <- ll_walk l count (nd_right n) ;;
      Ok (i :: rest)
  end.

(** linked_list.rs:158-160.  [iter], collected; [unwrap] on every payload. *)
Definition ll_iter (l : llist T) : outcome (list T) :=
  ptrs <- ll_walk l (Z.to_nat (ll_len l)) (ll_front l) ;;
  mapM (fun i => n <- ll_at l i ;; expect (nd_data n)) ptrs.
End LinkedList.
