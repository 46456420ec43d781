(** * What resampling means: reading a signal between its samples *)
From Coq Require Import ZArith List Reals.
From Flocq Require Import Core IEEE754.BinarySingleNaN.
From Verif Require Import Model.F32.
Open Scope R_scope.

(** The value of sample [i]; positions past the end repeat the last sample. *)
Definition at_sample (x : list f32) (i : Z) : R :=
  B2R (nth (Z.to_nat (Z.min i (Z.of_nat (length x) - 1))) x f0).
(** The signal at position [q], on the straight line between the two samples beside it. *)
Definition on_line (x : list f32) (q : R) : R :=
  let i := Zfloor q in
  let t := q - IZR i in
  at_sample x i * (1 - t) + at_sample x (i + 1) * t.
(** A sample that is a number from -1 to 1. *)
Definition full_scale (x : f32) : Prop := is_finite x = true /\ -1 <= B2R x <= 1.
(** Place [k] of [n] places spread evenly from the first to the last of [m] samples. *)
Definition place (m n k : Z) : R := IZR k * (IZR (m - 1) / IZR (n - 1)).
