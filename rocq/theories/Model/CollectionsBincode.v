(** * Model of the bincode form of [LinkedList] and [LruCache]

    The derived impls (linked_list.rs:17, lru_cache.rs:5), the hand-written impls of [Node]
    (collections.rs:94-221) and serde's impl for [HashMap]; the format is that of [Bincode.v].
    The payload types are parameters with their printers and parsers. *)
From Coq Require Import ZArith List Bool.
From Verif Require Import Model.Base Model.Bincode Model.LinkedList Model.LruCache.
Import ListNotations.
Open Scope Z_scope.

(** [Option<T>]: a byte 0, or a byte 1 and the value. *)
Definition put_option {T : Type} (put : T -> list Z) (o : option T) : list Z :=
  match o with None => put_u8 0 | Some x => put_u8 1 ++ put x end.
Definition get_option {T : Type} (get : parser T) : parser (option T) :=
  pbind get_u8 (fun tag =>
    if tag =? 0 then pret None
    else if tag =? 1 then pmap Some get
    else fun _ => None).

(** collections.rs:94-107.  [Node::serialize]: the children go out as a vector. *)
Definition put_node {T : Type} (put : T -> list Z) (n : node T) : list Z :=
  put_option put (nd_data n) ++ put_vec put_u32 [nd_left n; nd_right n].
(** collections.rs:160-182.  [visit_seq] (the one bincode calls): a vector of any length is
    read and copied over [[NULL; 2]] as far as both go. *)
Definition get_node {T : Type} (get : parser T) : parser (node T) :=
  pbind (get_option get) (fun d =>
  pbind (get_vec get_u32) (fun cs => pret (mkNode d (nth 0 cs NULL) (nth 1 cs NULL)))).

(** linked_list.rs:17-24.  The derived impls: the fields in order; [Ptr] is a u32. *)
Definition put_llist {T : Type} (put : T -> list Z) (l : llist T) : list Z :=
  put_vec (put_node put) (ll_memory l) ++ put_u32 (ll_front l) ++ put_u32 (ll_rear l) ++ put_u32 (ll_pool l) ++ put_u32 (ll_len l).
Definition get_llist {T : Type} (get : parser T) : parser (llist T) :=
  pbind (get_vec (get_node get)) (fun m =>
  pbind get_u32 (fun f => pbind get_u32 (fun r => pbind get_u32 (fun q => pbind get_u32 (fun n => pret (mkLL m f r q n)))))).

(** A pair: one after the other. *)
Definition put_pair {K V : Type} (pk : K -> list Z) (pv : V -> list Z) (e : K * V) : list Z := pk (fst e) ++ pv (snd e).
Definition get_pair {K V : Type} (gk : parser K) (gv : parser V) : parser (K * V) :=
  pbind gk (fun k => pbind gv (fun v => pret (k, v))).

(** lru_cache.rs:5-13.  The derived impls.  A map goes out as a count and its entries, in whatever
    order [order] the hash table iterates, and comes in by inserting one entry after another. *)
Definition put_lru {K V : Type} (pk : K -> list Z) (pv : V -> list Z) (order : list (K * Z)) (c : lru K V) : list Z :=
  put_vec (put_pair pk put_u32) order ++ put_llist (put_pair pk pv) (lru_list c) ++ put_u32 (lru_capacity c).
Definition get_lru {K V : Type} (eqb : K -> K -> bool) (gk : parser K) (gv : parser V) : parser (lru K V) :=
  pbind (get_vec (get_pair gk get_u32)) (fun es =>
  pbind (get_llist (get_pair gk gv)) (fun l =>
  pbind get_u32 (fun cap => pret (mkLru (fold_left (fun m e => fm_insert eqb m (fst e) (snd e)) es []) l cap)))).
