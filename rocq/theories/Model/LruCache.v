(** * Model of src/collections/lru_cache.rs

    The [HashMap<K, Ptr>] is an association list used as a finite map: its iteration
    order is never observed by the code. *)
From Coq Require Import ZArith List Bool.
From Verif Require Import Model.Base Model.LinkedList.
Import ListNotations.
Open Scope Z_scope.

(** std HashMap: [get], [insert], [remove]. *)
Section FinMap.
Context {K V : Type} (eqb : K -> K -> bool).
Fixpoint fm_get (m : list (K * V)) (k : K) : option V :=
  match m with
  | [] => None
  | (k', v) :: t => if eqb k k' then Some v else fm_get t k
  end.
Definition fm_remove (m : list (K * V)) (k : K) : list (K * V) :=
  filter (fun '(k', _) => negb (eqb k k')) m.
Definition fm_insert (m : list (K * V)) (k : K) (v : V) : list (K * V) :=
  (k, v) :: fm_remove m k.
End FinMap.

(** lru_cache.rs:6-13.  [LruCache]. *)
Record lru (K V : Type) := mkLru {
  lru_table : list (K * Z); lru_list : llist (K * V); lru_capacity : Z }.
Arguments mkLru {K V}. Arguments lru_table {K V}. Arguments lru_list {K V}.
Arguments lru_capacity {K V}.

Section Lru.
Context {K V : Type} (eqb : K -> K -> bool).

(** lru_cache.rs:21-30.  [new] (the capacity is truncated to u32), [len]. *)
Definition lru_new (capacity : Z) : lru K V := mkLru [] ll_new (uwrap 32 capacity).
Definition lru_len (c : lru K V) : Z := ll_len (lru_list c).

(** lru_cache.rs:34-40.  [lookup]. *)
Definition lru_lookup (c : lru K V) (k : K) : outcome (option V) :=
  match fm_get eqb (lru_table c) k with
  | None => Ok None
  | Some n =>
      nd <- ll_at (lru_list c) n ;;
      Ok (match nd_data nd with Some (_, v) => Some v | None => None end)
  end.

(** lru_cache.rs:97-107.  [raise_key]: returns the new list and the new pointer. *)
Definition raise_key (p : profile) (n : Z) (l : llist (K * V)) (val : option V)
  : outcome (llist (K * V) * Z) :=
  '(l, removed) <- ll_remove_at p l n ;;
  '(k, old) <- expect removed ;;
  l <- ll_push_front p l (k, match val with Some v => v | None => old end) ;;
  Ok (l, ll_front l).

(** lru_cache.rs:43-50, 63-71.  [get] and [get_mut] (the latter hands out the place of
    the value; writing through it is [lru_get_mut_set]). *)
Definition lru_get (p : profile) (c : lru K V) (k : K) : outcome (lru K V * option V) :=
  match fm_get eqb (lru_table c) k with
  | None => Ok (c, None)
  | Some n =>
      '(l, n') <- raise_key p n (lru_list c) None ;;
      let c := mkLru (fm_insert eqb (lru_table c) k n') l (lru_capacity c) in
      nd <- ll_at l (ll_front l) ;;
      Ok (c, match nd_data nd with Some (_, v) => Some v | None => None end)
  end.

(** [if let Some(r) = cache.get_mut(k) { *r = v }]. *)
Definition lru_get_mut_set (p : profile) (c : lru K V) (k : K) (v : V) : outcome (lru K V) :=
  match fm_get eqb (lru_table c) k with
  | None => Ok c
  | Some n =>
      '(l, n') <- raise_key p n (lru_list c) None ;;
      nd <- ll_at l (ll_front l) ;;
      let data := match nd_data nd with Some (k0, _) => Some (k0, v) | None => None end in
      l <- ll_put l (ll_front l) (mkNode data (nd_left nd) (nd_right nd)) ;;
      Ok (mkLru (fm_insert eqb (lru_table c) k n') l (lru_capacity c))
  end.

(** lru_cache.rs:51-61.  [remove]: the table entry of the key stored in the removed
    node is deleted. *)
Definition lru_remove (p : profile) (c : lru K V) (k : K) : outcome (lru K V * option V) :=
  match fm_get eqb (lru_table c) k with
  | None => Ok (c, None)
  | Some n =>
      '(l, removed) <- ll_remove_at p (lru_list c) n ;;
      match removed with
      | None => Ok (mkLru (lru_table c) l (lru_capacity c), None)
      | Some (k', v) => Ok (mkLru (fm_remove eqb (lru_table c) k') l (lru_capacity c), Some v)
      end
  end.

(** lru_cache.rs:73-95.  [put]. *)
Definition lru_put (p : profile) (c : lru K V) (k : K) (v : V) : outcome (lru K V) :=
  match fm_get eqb (lru_table c) k with
  | Some n =>
      '(l, n') <- raise_key p n (lru_list c) (Some v) ;;
      Ok (mkLru (fm_insert eqb (lru_table c) k n') l (lru_capacity c))
  | None =>
      '(t, l) <- (if lru_capacity c <=? lru_len c then
                    nd <- ll_at (lru_list c) (ll_rear (lru_list c)) ;;
                    '(k', _) <- expect (nd_data nd) ;;
                    '(l, _) <- ll_pop_rear p (lru_list c) ;;
                    Ok (fm_remove eqb (lru_table c) k', l)
                  else Ok (lru_table c, lru_list c)) ;;
      l <- ll_push_front p l (k, v) ;;
      Ok (mkLru (fm_insert eqb t k (ll_front l)) l (lru_capacity c))
  end.
End Lru.
