(** * Model of src/math/noise.rs (the generator; the histogram printer is not modelled) *)
From Coq Require Import ZArith List Bool.
From Verif Require Import Model.Base Model.F32.
Import ListNotations.
Open Scope Z_scope.

(** noise.rs:30-42.  The constants of [rand] and one step; [sequence : u64].
    Returns the new sequence value, which is also the random number. *)
Definition RAND_A : Z := 1000003.
Definition RAND_B : Z := 314159.
Definition RAND_M : Z := 507961.
Definition rand (p : profile) (sequence : Z) : outcome Z :=
  m <- uchk p 64 (RAND_A * sequence) ;;
  s <- uchk p 64 (m + RAND_B) ;;
  Ok (s mod RAND_M).

(** noise.rs:14-16.  One item of [uniform]: [((rand & 1023) as f32 / 1024.0) * 2.0 - 1.0]. *)
Definition uniform_of (r : Z) : f32 :=
  fsub (fmul (fdiv (f32_of_Z (Z.land r 1023)) (f32_of_Z 1024)) f2) f1.
Definition uniform_next (p : profile) (sequence : Z) : outcome (Z * f32) :=
  r <- rand p sequence ;;
  Ok (r, uniform_of r).

(** noise.rs:19-28.  One item of [triangle]. *)
Definition triangle_of (r1 r2 : Z) : f32 :=
  let a := fmul (fdiv (f32_of_Z (Z.land r1 16383)) (f32_of_Z 16384)) fm1 in
  let b := fmul (fdiv (f32_of_Z (Z.land r2 16383)) (f32_of_Z 16384)) f1 in
  fadd a b.
Definition triangle_next (p : profile) (sequence : Z) : outcome (Z * f32) :=
  r1 <- rand p sequence ;;
  r2 <- rand p r1 ;;
  Ok (r2, triangle_of r1 r2).
