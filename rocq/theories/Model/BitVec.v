(** * Model of src/collections/bitvec.rs *)
From Coq Require Import ZArith List Bool.
From Verif Require Import Model.Base.
Import ListNotations.
Open Scope Z_scope.

(** bitvec.rs:6-9.  [binary : Vec<u64>], [bit_cursor : u128]. *)
Record bitvec := mkBV { bv_binary : list Z; bv_cursor : Z }.

(** bitvec.rs:13-34.  [new], [clear], [len], [capacity]. *)
Definition bv_new : bitvec := mkBV [] 0.
Definition bv_clear (v : bitvec) : bitvec := mkBV (bv_binary v) 0.
Definition bv_len (v : bitvec) : Z := uwrap 64 (bv_cursor v).
Definition bv_capacity (v : bitvec) : Z := zlen (bv_binary v) * 64.

(** bitvec.rs:98-104.  [chunk_index], [chunk_bit_index]. *)
Definition bv_chunk_index (i : Z) : Z := uwrap 64 (i / 64).
Definition bv_chunk_bit_index (i : Z) : Z := i mod 64.

(** bitvec.rs:106-108.  [offset_cursor]. *)
Definition bv_offset_cursor (p : profile) (v : bitvec) (off : Z) : outcome bitvec :=
  c <- schk p 128 (swrap 128 (bv_cursor v) + off) ;;
  Ok (mkBV (bv_binary v) (uwrap 128 c)).

(** [chunk & !(1 << i)] on u64, as used by [push] and [set]. *)
Definition clear_bit64 (chunk i : Z) : Z :=
  Z.land chunk (2 ^ 64 - 1 - Z.shiftl 1 i).

(** bitvec.rs:40-51.  [push]: clears the destination bit, then ORs the new one. *)
Definition bv_push (p : profile) (v : bitvec) (bit : Z) : outcome bitvec :=
  let bit := Z.land bit 1 in
  let ci := bv_chunk_index (bv_cursor v) in
  let bi := bv_chunk_bit_index (bv_cursor v) in
  let bin := if zlen (bv_binary v) <=? ci then bv_binary v ++ [0] else bv_binary v in
  c <- index bin ci ;;
  bin <- store bin ci (Z.lor (clear_bit64 c bi) (Z.shiftl bit bi)) ;;
  bv_offset_cursor p (mkBV bin (bv_cursor v)) 1.

(** bitvec.rs:57-67.  [get]: 0 outside the allocated chunks. *)
Definition bv_get (v : bitvec) (idx : Z) : Z :=
  let ci := bv_chunk_index idx in
  let bi := bv_chunk_bit_index idx in
  if zlen (bv_binary v) <=? ci then 0
  else Z.land (Z.shiftr (nth (Z.to_nat ci) (bv_binary v) 0) bi) 1.

(** bitvec.rs:71-91.  [set]: ignored outside the allocated chunks. *)
Definition bv_set (v : bitvec) (idx bit : Z) : bitvec :=
  let ci := bv_chunk_index idx in
  let bi := bv_chunk_bit_index idx in
  if zlen (bv_binary v) <=? ci then v
  else
    let chunk := nth (Z.to_nat ci) (bv_binary v) 0 in
    let chunk := clear_bit64 chunk bi in
    let chunk := Z.lor chunk (Z.shiftl (Z.land bit 1) bi) in
    mkBV (replace_nth (Z.to_nat ci) (bv_binary v) chunk) (bv_cursor v).

(** bitvec.rs:110-112.  [iter]. *)
Definition bv_iter (v : bitvec) : list Z := map (bv_get v) (range (bv_len v)).

(** bitvec.rs:115-117.  [compute_bits_required]. *)
Definition bv_bits_required (num_bits : Z) : Z :=
  (num_bits / 64 + zclamp (num_bits mod 64) 0 1) * 64.
