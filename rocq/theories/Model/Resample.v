(** * Model of [scale_signal] (src/math/signal.rs:47-58) and [compute_mse] (src/math.rs:11-17)

    Rust does not specify the results of [powf], so the square is a parameter. *)
From Coq Require Import ZArith List Bool.
From Flocq Require Import IEEE754.BinarySingleNaN.
From Verif Require Import Model.Base Model.F32.
Import ListNotations.
Open Scope Z_scope.

(** [f32::floor], [f32::trunc] and [f32::fract] (std: [self - self.trunc()]). *)
Definition ffloor : f32 -> f32 := @Bnearbyint 24 128 prec_lt_emax mode_DN.
Definition ftrunc : f32 -> f32 := @Bnearbyint 24 128 prec_lt_emax mode_ZR.
Definition ffract (x : f32) : f32 := fsub x (ftrunc x).

(** signal.rs:50-56.  One round of the loop. *)
Definition scale_at (p : profile) (input : list f32) (scale_factor : f32) (output : list f32) (k : Z) : outcome (list f32) :=
  let kf := fmul (f32_of_Z k) scale_factor in
  last <- uchk p 64 (zlen input - 1) ;;
  let w0 := Z.min (f32_as_usize (ffloor kf)) last in
  w0' <- uchk p 64 (w0 + 1) ;;
  let w1 := Z.min w0' last in
  let t := ffract kf in
  a <- index input w0 ;;
  b <- index input w1 ;;
  store output k (fadd (fmul a (fsub f1 t)) (fmul b t)).
(** signal.rs:47-58.  The result is the whole output slice; the function returns its first
    [dst_len] places, which panics if there are fewer. *)
Definition scale_signal (p : profile) (input : list f32) (dst_len : Z) (output : list f32) : outcome (list f32) :=
  src <- uchk p 64 (zlen input - 1) ;;
  dst <- uchk p 64 (dst_len - 1) ;;
  let scale_factor := fdiv (f32_of_Z src) (f32_of_Z dst) in
  output <- foldM (scale_at p input scale_factor) (range dst_len) output ;;
  if zlen output <? dst_len then Panic IndexOutOfBounds else Ok output.

(** math.rs:11-17; [square x] is [x.powf(2.0)]. *)
Definition compute_mse (square : f32 -> f32) (a b : list f32) : f32 :=
  fdiv (fold_left (fun acc '(y, e) => fadd acc (square (fsub y e))) (combine a b) f0)
       (f32_of_Z (Z.min (zlen a) (zlen b))).
