(** * Model of the integer-index and bit-twiddling routines of src/math/signal.rs
    ([scale_signal] is in Resample.v; [gaussian_filter] uses powf/exp, whose results Rust does not specify: not modelled) *)
From Coq Require Import ZArith List Bool.
From Flocq Require Import IEEE754.BinarySingleNaN.
From Verif Require Import Model.Base Model.F32.
Import ListNotations.
Open Scope Z_scope.

(** [f32::to_bits] / [f32::from_bits]: sign, 8 exponent bits, 23 mantissa bits.  The
    one NaN of the model has the bits of Rust's [f32::NAN]. *)
Definition f32_to_bits (x : f32) : Z :=
  match x with
  | B754_zero s => (if s then 2 ^ 31 else 0)
  | B754_infinity s => (if s then 2 ^ 31 else 0) + 255 * 2 ^ 23
  | B754_nan => 255 * 2 ^ 23 + 2 ^ 22
  | B754_finite s m e _ =>
      (if s then 2 ^ 31 else 0)
      + (if Z.pos m <? 2 ^ 23 then Z.pos m else (e + 150) * 2 ^ 23 + (Z.pos m - 2 ^ 23))
  end.
Definition f32_from_bits (b : Z) : f32 :=
  let s := 2 ^ 31 <=? b in
  let b := b mod 2 ^ 31 in
  let ex := b / 2 ^ 23 in
  let m := b mod 2 ^ 23 in
  if ex =? 255 then (if m =? 0 then B754_infinity s else B754_nan)
  else if (ex =? 0) && (m =? 0) then B754_zero s
  else
    let sg (x : Z) := if s then - x else x in
    if ex =? 0 then flit (sg m) (-149) else flit (sg (m + 2 ^ 23)) (ex - 150).

(** signal.rs:15-27.  [convolve_1d]; [sum] starts at 0.0 and the result slice is
    written at [0..samples.len()]. *)
Definition tap (samples : list f32) (idx : Z) : outcome f32 :=
  if (idx <? 0) || (zlen samples <=? idx) then Ok f0 else index samples idx.
Definition convolve_at (samples kernel : list f32) (i : Z) : outcome f32 :=
  foldM (fun sum j =>
           s <- tap samples (j + i - Z.quot (zlen kernel) 2) ;;
           k <- index kernel j ;;
           Ok (fadd sum (fmul s k))) (range (zlen kernel)) f0.
Definition convolve_1d (samples kernel result : list f32) : outcome (list f32) :=
  foldM (fun result i =>
           v <- convolve_at samples kernel i ;;
           store result i v) (range (zlen samples)) result.

(** signal.rs:29-45.  [convolve_1d_branchless]. *)
Definition oob_mask (b : bool) : Z :=
  uwrap 32 (Z.shiftr (swrap 32 (uwrap 32 (Z.shiftl (Z.b2z b) 31))) 31).
Definition tap_branchless (samples : list f32) (idx : Z) : outcome f32 :=
  let mask := oob_mask ((idx <? 0) || (zlen samples <=? idx)) in
  c <- clampP idx 0 (zlen samples - 1) ;;
  sample <- index samples c ;;
  Ok (f32_from_bits
        (Z.lor (Z.land mask (f32_to_bits f0))
               (Z.land (2 ^ 32 - 1 - mask) (f32_to_bits sample)))).
Definition convolve_branchless_at (samples kernel : list f32) (i : Z) : outcome f32 :=
  foldM (fun sum j =>
           s <- tap_branchless samples (j + (i - Z.shiftr (zlen kernel) 1)) ;;
           k <- index kernel j ;;
           Ok (fadd sum (fmul s k))) (range (zlen kernel)) f0.
Definition convolve_1d_branchless (samples kernel result : list f32) : outcome (list f32) :=
  foldM (fun result i =>
           v <- convolve_branchless_at samples kernel i ;;
           store result i v) (range (zlen samples)) result.
