(** * What a platform must grant for [powf(_, 2.0)] and [exp] *)
From Coq Require Import ZArith Reals.
From Flocq Require Import Core IEEE754.BinarySingleNaN.
From Verif Require Import Model.F32.
Open Scope R_scope.

(** A number of at most [2^k]. *)
Definition number (k : Z) (x : f32) : Prop := is_finite x = true /\ Rabs (B2R x) <= bpow radix2 k.
(** Squares of moderate numbers are moderate, do not depend on the sign, and grow with the number. *)
Record good_square (square : f32 -> f32) : Prop := {
  sq_number : forall x, number 61 x -> number 123 (square x) /\ 0 <= B2R (square x);
  sq_even : forall x y, number 61 x -> number 61 y -> Rabs (B2R x) = Rabs (B2R y) -> square x = square y;
  sq_grows : forall x y, number 61 x -> number 61 y -> Rabs (B2R x) <= Rabs (B2R y) -> B2R (square x) <= B2R (square y) }.
(** The exponential of a number that is not positive lies from 0 to 1 and grows with the number. *)
Record good_exp (exp : f32 -> f32) : Prop := {
  exp_number : forall x, number 123 x -> B2R x <= 0 -> is_finite (exp x) = true /\ 0 <= B2R (exp x) <= 1;
  exp_grows : forall x y, number 123 x -> number 123 y -> B2R x <= B2R y -> B2R y <= 0 -> B2R (exp x) <= B2R (exp y) }.
(** Moderate parameters of the filter. *)
Definition moderate (sigma r : f32) : Prop :=
  number 30 sigma /\ bpow radix2 (-30) <= B2R sigma /\ number 30 r /\ 0 <= B2R r.
