(** * Specification vocabulary: bit strings and Golomb-Rice code words *)
From Coq Require Import ZArith List Bool.
Import ListNotations.
Open Scope Z_scope.

(** The [n] low bits of [v], least significant first. *)
Fixpoint bits_le (n : nat) (v : Z) : list bool :=
  match n with
  | O => []
  | S n => Z.odd v :: bits_le n (v / 2)
  end.

(** The number a bit string denotes, least significant first. *)
Fixpoint bits_val (l : list bool) : Z :=
  match l with
  | [] => 0
  | b :: t => (if b then 1 else 0) + 2 * bits_val t
  end.

(** The sign-magnitude Golomb-Rice code word of [v] with parameter [e]: sign, unary
    quotient, zero, [e]-bit remainder. *)
Definition rice (e v : Z) : list bool :=
  (v <? 0)
  :: repeat true (Z.to_nat (Z.abs v / 2 ^ e))
  ++ false
  :: bits_le (Z.to_nat e) (Z.abs v mod 2 ^ e).
