(** * Specification of the bit stream as a log of typed items

    One constructor per kind of write a client can perform; [item_bits] is what must end
    up in the stream, [item_value] what the matching read must return. *)
From Coq Require Import ZArith List Bool.
From Verif Require Import Model.Base Model.BitStream Spec.Bits.
Import ListNotations.
Open Scope Z_scope.

Inductive item :=
| IBit (v : Z)               (* write_bit(v) / read_bit() *)
| IBits (v n : Z)            (* write_bits(v, n) / read_bits(n) *)
| ITyped (v size : Z)        (* write::<T>(v) / read::<T>() with T of [size] bits *)
| IRice (e v : Z)            (* write_compressed(e, v) / read_compressed(e) *)
| ICapped (k v : Z).         (* write_compressed_capped::<2^k>(v) / read_compressed_capped(2^k) *)

(** The arguments the types and the documentation allow.  Exponent 15 is only usable in
    builds without overflow checks, and [-32768] has no magnitude in 16 bits. *)
Definition item_ok (p : profile) (i : item) : Prop :=
  match i with
  | IBit v => 0 <= v < 256
  | IBits v n => 0 <= v < 2 ^ 128 /\ 0 <= n <= 128
  | ITyped v size => 0 <= v < 2 ^ size /\ In size [8; 16; 32; 64; 128]
  | IRice e v => 0 <= e <= 15 /\ (p = Debug -> e <= 14) /\ -32767 <= v <= 32767
  | ICapped k v => 0 <= k <= 14 /\ -32767 <= v <= 32767
  end.

(** Clamp to the capped range, and whether a value goes through the capped escape. *)
Definition capped_clamp (v : Z) : Z := Z.max (-8192) (Z.min 8191 v).
Definition escapes (k v : Z) : bool := 16 <=? Z.abs v / 2 ^ k.

Definition item_bits (i : item) : list bool :=
  match i with
  | IBit v => bits_le 1 v
  | IBits v n => bits_le (Z.to_nat n) v
  | ITyped v size => bits_le (Z.to_nat size) v
  | IRice e v => rice e v
  | ICapped k v => if escapes k v then true :: bits_le 14 (capped_clamp v) else false :: rice k v
  end.

Definition item_value (i : item) : Z :=
  match i with
  | IBit v => v mod 2
  | IBits v n => v mod 2 ^ n
  | ITyped v _ => v
  | IRice _ v => v
  | ICapped k v => if escapes k v then capped_clamp v else v
  end.

Definition total_bits (l : list item) : Z := zlen (flat_map item_bits l).

(** Performing the writes and the matching reads through the API. *)
Definition write_item (p : profile) (s : bitstream) (i : item) : outcome bitstream :=
  match i with
  | IBit v => write_bit p s v
  | IBits v n => write_bits p s v n
  | ITyped v size => write_typed p s v size
  | IRice e v => write_compressed p s e v
  | ICapped k v => write_compressed_capped p s (2 ^ k) v
  end.
Definition read_item (p : profile) (s : bitstream) (i : item) : outcome (bitstream * Z) :=
  match i with
  | IBit _ => read_bit p s
  | IBits _ n => read_bits p s n
  | ITyped _ size => read_typed p s size
  | IRice e _ => read_compressed p s e
  | ICapped k _ => read_compressed_capped p s (2 ^ k)
  end.
Definition write_items (p : profile) (s : bitstream) (l : list item) : outcome bitstream :=
  foldM (write_item p) l s.
Fixpoint read_items (p : profile) (s : bitstream) (l : list item) : outcome (bitstream * list Z) :=
  match l with
  | [] => Ok (s, [])
  | i :: l =>
      '(s, v) <- read_item p s i ;;
      '(s, vs) <- read_items p s l ;;
      Ok (s, v :: vs)
  end.
(** Reading [n] single bits. *)
Fixpoint read_bools (p : profile) (s : bitstream) (n : nat) : outcome (bitstream * list bool) :=
  match n with
  | O => Ok (s, [])
  | S n =>
      '(s, v) <- read_bit p s ;;
      '(s, vs) <- read_bools p s n ;;
      Ok (s, (v =? 1) :: vs)
  end.

(** A stream whose fields have their Rust types and whose cursor lies inside the
    allocated chunks. *)
Definition typed_stream (s : bitstream) : Prop :=
  Forall (fun x => 0 <= x < 2 ^ 128) (bs_binary s) /\
  0 <= bs_cursor s <= 128 * zlen (bs_binary s).

(** Everything behind the chunk the cursor is in is zero. *)
Definition clear_ahead (s : bitstream) : Prop :=
  forall j, bs_cursor s / 128 < j < zlen (bs_binary s) -> index (bs_binary s) j = Ok 0.
