(** * F32: IEEE-754 binary32 as used by the crate

    [f32] is Flocq's [binary_float 24 128] (a single NaN: payloads are never
    observed by the crate).  Arithmetic is Flocq's correctly rounded
    round-to-nearest-even arithmetic, the default of every Rust target.
    Casts follow the Rust reference: float-to-int saturates and maps NaN to 0,
    int-to-float rounds to nearest. *)
From Coq Require Import ZArith Bool.
From Flocq Require Import IEEE754.BinarySingleNaN.
From Verif Require Import Model.Base.
Open Scope Z_scope.

Definition f32 : Set := binary_float 24 128.

Lemma prec_pos : FLX.Prec_gt_0 24. Proof. reflexivity. Qed.
Lemma prec_lt_emax : Prec_lt_emax 24 128. Proof. reflexivity. Qed.

Definition fadd : f32 -> f32 -> f32 := @Bplus 24 128 prec_pos prec_lt_emax mode_NE.
Definition fsub : f32 -> f32 -> f32 := @Bminus 24 128 prec_pos prec_lt_emax mode_NE.
Definition fmul : f32 -> f32 -> f32 := @Bmult 24 128 prec_pos prec_lt_emax mode_NE.
Definition fdiv : f32 -> f32 -> f32 := @Bdiv 24 128 prec_pos prec_lt_emax mode_NE.
Definition flt : f32 -> f32 -> bool := @Bltb 24 128.

(** [m * 2^e] rounded to f32: literals and int-to-float casts. *)
Definition flit (m e : Z) : f32 :=
  @binary_normalize 24 128 prec_pos prec_lt_emax mode_NE m e false.
(** [n as f32] for an integer [n]. *)
Definition f32_of_Z (n : Z) : f32 := flit n 0.

(** [f32::clamp] (std): NaN is returned unchanged. *)
Definition fclamp (x lo hi : f32) : f32 :=
  let x := if flt x lo then lo else x in
  if flt hi x then hi else x.

(** [x as iN] / [x as uN]: truncation toward zero, saturating, NaN to 0. *)
Definition f32_to_int (lo hi : Z) (x : f32) : Z :=
  match x with
  | B754_nan => 0
  | B754_infinity s => if s then lo else hi
  | _ => zclamp (Btrunc x) lo hi
  end.
Definition f32_as_i16 : f32 -> Z := f32_to_int (-32768) 32767.
Definition f32_as_i64 : f32 -> Z := f32_to_int (- 2 ^ 63) (2 ^ 63 - 1).
Definition f32_as_u64 : f32 -> Z := f32_to_int 0 (2 ^ 64 - 1).
Definition f32_as_usize : f32 -> Z := f32_as_u64.

(** Literals used by the crate. *)
Definition f0 : f32 := f32_of_Z 0.
Definition f1 : f32 := f32_of_Z 1.
Definition fm1 : f32 := f32_of_Z (-1).
Definition fhalf : f32 := flit 1 (-1).
Definition f2 : f32 := f32_of_Z 2.
Definition f3 : f32 := f32_of_Z 3.
Definition f4 : f32 := f32_of_Z 4.
Definition f1000 : f32 := f32_of_Z 1000.
(** the f32 nearest to the decimal literal [0.001] *)
Definition f_0_001 : f32 := flit 8589935 (-33).
