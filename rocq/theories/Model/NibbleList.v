(** * Model of src/collections/nibble_list.rs *)
From Coq Require Import ZArith List Bool.
From Verif Require Import Model.Base.
Import ListNotations.
Open Scope Z_scope.

(** nibble_list.rs:4-7.  [data : Vec<u8>], [nibble_count : u32]. *)
Record nibble_list := mkNL { nl_data : list Z; nl_count : Z }.

(** nibble_list.rs:11-24.  [new], [is_empty], [len]. *)
Definition nl_new : nibble_list := mkNL [] 0.
Definition nl_len (n : nibble_list) : Z := nl_count n.
Definition nl_is_empty (n : nibble_list) : bool := nl_len n =? 0.

(** nibble_list.rs:32-40.  [push]: ORs the value in, without clearing. *)
Definition nl_push (p : profile) (n : nibble_list) (val : Z) : outcome nibble_list :=
  let block := nl_count n / 2 in
  let nib := nl_count n mod 2 in
  let data := if zlen (nl_data n) <=? block then nl_data n ++ [0] else nl_data n in
  b <- index data block ;;
  data <- store data block (Z.lor b (uwrap 8 (Z.shiftl val (4 * nib)))) ;;
  c <- uchk p 32 (nl_count n + 1) ;;
  Ok (mkNL data c).

(** nibble_list.rs:42-49.  [get]: 0 outside the allocated bytes. *)
Definition nl_get (n : nibble_list) (idx : Z) : Z :=
  let block := idx / 2 in
  let nib := idx mod 2 in
  if zlen (nl_data n) <=? block then 0
  else Z.land (Z.shiftr (nth (Z.to_nat block) (nl_data n) 0) (4 * nib)) 15.

(** nibble_list.rs:51-59.  [set]: ignored outside the allocated bytes. *)
Definition nl_set (n : nibble_list) (idx val : Z) : nibble_list :=
  let block := idx / 2 in
  let nib := idx mod 2 in
  if zlen (nl_data n) <=? block then n
  else
    let b := nth (Z.to_nat block) (nl_data n) 0 in
    let b := Z.land b (Z.lor (15 * nib) (240 * (1 - nib))) in
    let b := Z.lor b (uwrap 8 (Z.shiftl val (4 * nib))) in
    mkNL (replace_nth (Z.to_nat block) (nl_data n) b) (nl_count n).

(** nibble_list.rs:61-67.  [clear], [iter]. *)
Definition nl_clear (n : nibble_list) : nibble_list := mkNL (nl_data n) 0.
Definition nl_iter (n : nibble_list) : list Z := map (nl_get n) (range (nl_len n)).
