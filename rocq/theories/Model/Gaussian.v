(** * Model of [gaussian_filter] (src/math/signal.rs:3-14)

    Rust does not specify the results of [powf] and [exp], so both are parameters. *)
From Coq Require Import ZArith List Bool.
From Flocq Require Import IEEE754.BinarySingleNaN.
From Verif Require Import Model.Base Model.F32.
Import ListNotations.
Open Scope Z_scope.

(** [f32::sqrt] is correctly rounded. *)
Definition fsqrt : f32 -> f32 := @Bsqrt 24 128 prec_pos prec_lt_emax mode_NE.
(** signal.rs:5.  The f32 nearest to 3.141 (both operands and so the quotient are right). *)
Definition f_3_141 : f32 := fdiv (f32_of_Z 3141) (f32_of_Z 1000).
(** signal.rs:5. *)
Definition gauss_coef (sigma : f32) : f32 := fdiv f1 (fmul sigma (fsqrt (fmul f2 f_3_141))).
(** signal.rs:7.  [x_scaled]; inside the loop [N - 1] does not underflow. *)
Definition gauss_position (n : Z) (r : f32) (k : Z) : f32 :=
  fsub (fmul (fmul (fdiv (f32_of_Z k) (f32_of_Z (n - 1))) f2) r) r.
(** signal.rs:9-10; [square x] is [x.powf(2.0)]. *)
Definition gauss_tap (square exp : f32 -> f32) (n : Z) (sigma r : f32) (k : Z) : f32 :=
  fmul (gauss_coef sigma) (exp (fmul (flit (-1) (-1)) (square (fdiv (gauss_position n r k) sigma)))).
(** signal.rs:3-14.  The array of [n] taps. *)
Definition gaussian_filter (square exp : f32 -> f32) (n : Z) (sigma r : f32) : list f32 :=
  map (gauss_tap square exp n sigma r) (range n).
