(** * Property C90: the mean square error ([compute_mse])

    [square] stands for [powf(_, 2.0)]; each theorem says what it needs of it. *)
From Coq Require Import ZArith List Bool Reals Lra Lia.
From Flocq Require Import Core IEEE754.BinarySingleNaN.
From Verif Require Import Model.Base Model.F32 Model.Resample Proofs.BaseFacts Proofs.FloatFacts Proofs.ResampleFacts.
Import ListNotations.
Open Scope Z_scope.

Definition finite (x : f32) : Prop := is_finite x = true.

(** ** Facts about f32 *)
Lemma sub_self x : finite x -> fsub x x = f0.
Proof.
  intros H. unfold finite in H. pose proof (Bminus_correct 24 128 prec_pos prec_lt_emax mode_NE x x H H) as C.
  rewrite Rminus_diag_eq, round_0 in C by (auto; apply valid_rnd_N). rewrite Rabs_R0, Rlt_bool_true in C by apply bpow_gt_0.
  destruct C as (C1 & C2 & C3). rewrite Rcompare_Eq in C3 by auto. fold (fsub x x) in C1, C2, C3.
  assert (S : Bsign (fsub x x) = false) by (rewrite C3; cbn; destruct (Bsign x); reflexivity).
  change f0 with (B754_zero false : f32).
  destruct (fsub x x) as [s|s| |s m e B]; try discriminate C2; cbn in S; subst s; auto.
  exfalso. cbn [B2R cond_Zopp] in C1. pose proof (F2R_gt_0 radix2 (Float radix2 (Z.pos m) e) ltac:(cbn; lia)). cbn in *. lra.
Qed.

(** NaN, or without a minus sign. *)
Definition unsigned (x : f32) : Prop := x = B754_nan \/ Bsign x = false.
Lemma unsigned_add x y : unsigned x -> unsigned y -> unsigned (fadd x y).
Proof.
  intros [->|Sx] [->|Sy]; try (left; destruct x; reflexivity); try (left; destruct y; reflexivity); try (left; reflexivity).
  destruct (is_finite x) eqn:Fx, (is_finite y) eqn:Fy.
  - right. pose proof (Bplus_correct 24 128 prec_pos prec_lt_emax mode_NE x y Fx Fy) as C.
    assert (N : forall z : f32, is_finite z = true -> Bsign z = false -> (0 <= B2R z)%R).
    { intros [s|s| |s m e B] F S; try discriminate F; cbn in S; subst s; cbn [B2R]; [lra|]. apply F2R_ge_0. cbn. lia. }
    pose proof (N x Fx Sx). pose proof (N y Fy Sy). destruct (Rlt_bool _ _) in C.
    + destruct C as (_ & _ & C). unfold fadd. rewrite C, Sx, Sy. destruct (Rcompare_spec (B2R x + B2R y) 0); auto. lra.
    + destruct C as [C _]. unfold fadd.
      destruct (Bplus mode_NE x y) as [s|s| |s m e B]; rewrite Sx in C; cbn in C; try discriminate C; cbn; congruence.
  - destruct x as [s|s| |s m e B], y as [s'|s'| |s' m' e' B']; try discriminate; cbn in *; subst; (left; reflexivity) || (right; reflexivity).
  - destruct x as [s|s| |s m e B], y as [s'|s'| |s' m' e' B']; try discriminate; cbn in *; subst; (left; reflexivity) || (right; reflexivity).
  - destruct x as [s|s| |s m e B], y as [s'|s'| |s' m' e' B']; try discriminate; cbn in *; subst; (left; reflexivity) || (right; reflexivity).
Qed.

Lemma unsigned_div x y : unsigned x -> unsigned y -> unsigned (fdiv x y).
Proof.
  intros [->|Sx] [->|Sy]; try (left; destruct x; reflexivity); try (left; destruct y; reflexivity); try (left; reflexivity).
  destruct (is_finite_strict y) eqn:Fy.
  - assert (NZ : B2R y <> 0%R).
    { destruct y as [s|s| |s m e B]; try discriminate Fy. cbn [B2R]. cbn in Sy. subst s. cbn [cond_Zopp].
      pose proof (F2R_gt_0 radix2 (Float radix2 (Z.pos m) e) ltac:(cbn; lia)). lra. }
    pose proof (Bdiv_correct 24 128 prec_pos prec_lt_emax mode_NE x y NZ) as C. fold (fdiv x y) in C. destruct (Rlt_bool _ _) in C.
    + destruct C as (_ & _ & C). destruct (fdiv x y) as [s|s| |s m e B] eqn:E; try (right; rewrite C by reflexivity; now rewrite Sx, Sy). now left.
    + rewrite Sx, Sy in C. destruct (fdiv x y) as [s|s| |s m e B]; cbn in C; try discriminate C. right. cbn. congruence.
  - destruct x as [s|s| |s m e B], y as [s'|s'| |s' m' e' B']; try discriminate; cbn in *; subst; (left; reflexivity) || (right; reflexivity).
Qed.
Lemma unsigned_cast n : 0 <= n -> unsigned (f32_of_Z n).
Proof.
  intros H. pose proof (binary_normalize_correct 24 128 prec_pos prec_lt_emax mode_NE n 0 false) as C. cbv zeta in C.
  fold (flit n 0) in C. fold (f32_of_Z n) in C.
  assert (N : (0 <= F2R (Float radix2 n 0))%R) by (apply F2R_ge_0; exact H). destruct (Rlt_bool _ _) in C.
  - right. destruct C as (_ & _ & C). rewrite C. destruct (Rcompare_spec (F2R (Float radix2 n 0)) 0); auto. lra.
  - right. assert (S : Rlt_bool (F2R (Float radix2 n 0)) 0 = false) by (apply Rlt_bool_false; exact N). rewrite S in C.
    destruct (f32_of_Z n) as [s|s| |s m e B]; cbn in C; try discriminate C. cbn. congruence.
Qed.
Lemma unsigned_not_less x : unsigned x -> flt x f0 = false.
Proof.
  change f0 with (B754_zero false : f32). intros [->|S]; [reflexivity|]. destruct x as [s|s| |s m e B]; cbn in S; subst; reflexivity.
Qed.

(** The difference the other way round is the same or the opposite. *)
Lemma sub_swap x y : fsub y x = fsub x y \/ fsub y x = Bopp (fsub x y).
Proof.
  destruct (is_finite x) eqn:Fx, (is_finite y) eqn:Fy.
  - pose proof (Bminus_correct 24 128 prec_pos prec_lt_emax mode_NE x y Fx Fy) as C.
    pose proof (Bminus_correct 24 128 prec_pos prec_lt_emax mode_NE y x Fy Fx) as D.
    fold (fsub x y) in C. fold (fsub y x) in D.
    assert (O : rnd32 (B2R y - B2R x) = (- rnd32 (B2R x - B2R y))%R).
    { rewrite <- round_NE_opp. f_equal. ring. }
    rewrite O, Rabs_Ropp in D. destruct (Rlt_bool _ _).
    + destruct C as (C1 & C2 & C3), D as (D1 & D2 & D3). rewrite <- C1 in D1.
      destruct (fsub x y) as [s|s| |s m e B] eqn:Ex; try discriminate C2.
      * assert (Z : exists s', fsub y x = B754_zero s').
        { destruct (fsub y x) as [s'|s'| |s' m' e' B']; try discriminate D2; [now exists s'|]. exfalso. cbn [B2R] in D1. rewrite Ropp_0 in D1.
          destruct s'; cbn [cond_Zopp] in D1.
          - pose proof (F2R_lt_0 radix2 (Float radix2 (Z.neg m') e') ltac:(cbn; lia)). cbn in *. lra.
          - pose proof (F2R_gt_0 radix2 (Float radix2 (Z.pos m') e') ltac:(cbn; lia)). cbn in *. lra. }
        destruct Z as [s' Z]. rewrite Z. destruct s, s'; (left; reflexivity) || (right; reflexivity).
      * right. rewrite <- Ex in *. apply B2R_inj.
        -- destruct (fsub y x) as [s'|s'| |s' m' e' B']; try discriminate D2; [|reflexivity]. exfalso. rewrite Ex in D1. cbn [B2R] in D1.
           destruct s; cbn [cond_Zopp] in D1.
           ++ pose proof (F2R_lt_0 radix2 (Float radix2 (Z.neg m) e) ltac:(cbn; lia)). cbn in *. lra.
           ++ pose proof (F2R_gt_0 radix2 (Float radix2 (Z.pos m) e) ltac:(cbn; lia)). cbn in *. lra.
        -- rewrite Ex. reflexivity.
        -- rewrite D1, B2R_Bopp. reflexivity.
    + destruct C as [C _], D as [D _].
      destruct (fsub x y) as [s|s| |s m e B]; cbn in C; try discriminate C.
      destruct (fsub y x) as [s'|s'| |s' m' e' B']; cbn in D; try discriminate D. destruct s, s'; (left; reflexivity) || (right; reflexivity).
  - destruct x as [s|s| |s m e B], y as [s'|s'| |s' m' e' B']; try discriminate; try (destruct s); try (destruct s'); (left; reflexivity) || (right; reflexivity).
  - destruct x as [s|s| |s m e B], y as [s'|s'| |s' m' e' B']; try discriminate; try (destruct s); try (destruct s'); (left; reflexivity) || (right; reflexivity).
  - destruct x as [s|s| |s m e B], y as [s'|s'| |s' m' e' B']; try discriminate; try (destruct s); try (destruct s'); (left; reflexivity) || (right; reflexivity).
Qed.

(** ** Theorems *)
(** A signal against itself: no error; what the longer of two signals has in excess is ignored. *)
Theorem C90_self : forall square a b, square f0 = f0 -> Forall finite a -> 1 <= zlen a <= 2 ^ 61 ->
  compute_mse square a (a ++ b) = f0 /\ compute_mse square (a ++ b) a = f0.
Proof.
  intros square a b S F L. pose proof (zlen_nonneg b).
  assert (D : fdiv f0 (f32_of_Z (zlen a)) = f0).
  { destruct (cast_any (zlen a) ltac:(lia)) as (Fn & _ & O). specialize (O ltac:(lia)). pose proof (unsigned_cast (zlen a) ltac:(lia)) as [U|U].
    - rewrite U in Fn. discriminate.
    - change f0 with (B754_zero false : f32). unfold val in O. destruct (f32_of_Z (zlen a)) as [s|s| |s m e B]; try discriminate Fn; cbn in O, U; [lra|]. subst s. reflexivity. }
  assert (A0 : fadd f0 f0 = f0) by (apply B2SF_inj; reflexivity).
  assert (K : forall c c' : list f32, (c = a /\ c' = a ++ b \/ c = a ++ b /\ c' = a) ->
    fold_left (fun acc '(y, e) => fadd acc (square (fsub y e))) (combine c c') f0 = f0).
  { clear -S F A0. induction F as [|x a Hx F IH]; intros c c' [[-> ->]|[-> ->]]; cbn [app combine fold_left].
    - reflexivity.
    - destruct b; reflexivity.
    - rewrite sub_self, S, A0 by exact Hx. apply IH. auto.
    - rewrite sub_self, S, A0 by exact Hx. apply IH. auto. }
  unfold compute_mse. rewrite !zlen_app. rewrite !K by auto. 
  replace (Z.min (zlen a) (zlen a + zlen b)) with (zlen a) by lia. replace (Z.min (zlen a + zlen b) (zlen a)) with (zlen a) by lia. auto.
Qed.

(** Nothing to compare: NaN. *)
Theorem C90_empty : forall square a b, zlen a = 0 \/ zlen b = 0 -> compute_mse square a b = B754_nan.
Proof.
  intros square a b H. pose proof (zlen_nonneg a). pose proof (zlen_nonneg b).
  unfold compute_mse. replace (Z.min (zlen a) (zlen b)) with 0 by lia.
  assert (E : combine a b = []).
  { destruct a as [|x a]; [reflexivity|]. destruct b as [|y b]; [reflexivity|]. rewrite !zlen_cons in H. pose proof (zlen_nonneg a). pose proof (zlen_nonneg b). lia. }
  rewrite E. reflexivity.
Qed.

(** One pair with a NaN or with two equal infinities makes the whole NaN. *)
Theorem C90_nan : forall square a b k, square B754_nan = B754_nan -> (k < length a)%nat -> (k < length b)%nat ->
  fsub (nth k a f0) (nth k b f0) = B754_nan -> compute_mse square a b = B754_nan.
Proof.
  intros square a b k S La Lb E. unfold compute_mse.
  assert (N : forall y, fdiv B754_nan y = B754_nan) by (intros []; reflexivity).
  assert (P : forall l : list (f32 * f32), fold_left (fun acc '(y, e) => fadd acc (square (fsub y e))) l B754_nan = B754_nan).
  { induction l as [|[y e] l IH]; [reflexivity|]. cbn [fold_left]. replace (fadd B754_nan (square (fsub y e))) with (B754_nan : f32) by (destruct (square (fsub y e)); reflexivity). exact IH. }
  assert (Q : forall acc, fold_left (fun acc '(y, e) => fadd acc (square (fsub y e))) (combine a b) acc = B754_nan).
  { clear N. revert b k La Lb E. induction a as [|x a IH]; intros [|y b] k La Lb E acc; cbn in La, Lb; try lia.
    cbn [combine fold_left]. destruct k as [|k]; cbn [nth] in E.
    - rewrite E, S. replace (fadd acc B754_nan) with (B754_nan : f32) by (destruct acc; reflexivity). apply P.
    - apply (IH b k); auto; lia. }
  rewrite Q. apply N.
Qed.

(** It is never below zero, as long as squares are not. *)
Theorem C90_not_negative : forall square a b, (forall x, square x = B754_nan \/ Bsign (square x) = false) ->
  flt (compute_mse square a b) f0 = false.
Proof.
  intros square a b S. apply unsigned_not_less. unfold compute_mse. pose proof (zlen_nonneg a). pose proof (zlen_nonneg b).
  apply unsigned_div; [|apply unsigned_cast; lia].
  assert (Q : forall l acc, unsigned acc -> unsigned (fold_left (fun acc '(y, e) => fadd acc (square (fsub y e))) l acc)).
  { induction l as [|[y e] l IH]; intros acc U; [exact U|]. cbn [fold_left]. apply IH. apply unsigned_add; [exact U|apply S]. }
  apply Q. right. reflexivity.
Qed.

(** It does not matter which signal is the original. *)
Theorem C90_symmetric : forall square a b, (forall x, square (Bopp x) = square x) ->
  compute_mse square a b = compute_mse square b a.
Proof.
  intros square a b S. unfold compute_mse. rewrite (Z.min_comm (zlen b)). f_equal. generalize f0 as acc. revert b.
  induction a as [|x a IH]; intros [|y b] acc; try reflexivity. cbn [combine fold_left].
  replace (square (fsub y x)) with (square (fsub x y)); [apply IH|]. destruct (sub_swap x y) as [->| ->]; auto.
Qed.

(** Non-vacuity: multiplication by itself meets all hypotheses; the error of (1, 1/2) as an
    estimate of (1/2, 1) is 1/4. *)
Definition by_itself (x : f32) : f32 := fmul x x.
Lemma by_itself_ok : by_itself f0 = f0 /\ by_itself B754_nan = B754_nan /\ 
  (forall x, by_itself x = B754_nan \/ Bsign (by_itself x) = false) /\ (forall x, by_itself (Bopp x) = by_itself x).
Proof.
  assert (N : forall x, by_itself x = B754_nan \/ Bsign (by_itself x) = false).
  { intros x. unfold by_itself. pose proof (Bmult_correct 24 128 prec_pos prec_lt_emax mode_NE x x) as C. fold (fmul x x) in C.
    rewrite xorb_nilpotent in C. destruct (Rlt_bool _ _) in C.
    - destruct C as (_ & _ & C). destruct (fmul x x) as [s|s| |s m e B]; try (right; now apply C). now left.
    - destruct (fmul x x) as [s|s| |s m e B]; cbn in C; try discriminate C. right. cbn. congruence. }
  split; [apply B2SF_inj; reflexivity|]. split; [reflexivity|]. split; [exact N|].
  intros x. destruct x as [s|s| |s m e B]; try (destruct s; reflexivity); try reflexivity.
  apply B2SF_inj.
  unfold by_itself, fmul, Bopp, Bmult.
  rewrite !B2SF_SF2B, !xorb_nilpotent. reflexivity.
Qed.
Example C90_applies :
  B2SF (compute_mse by_itself [f1; fhalf] [fhalf; f1]) = B2SF (flit 1 (-2)) /\
  compute_mse by_itself [f1; fhalf] [f1; fhalf; f2] = f0 /\
  compute_mse by_itself [f1; B754_nan] [fhalf; f1] = B754_nan.
Proof.
  split; [vm_compute; reflexivity|]. split.
  - change [f1; fhalf; f2] with ([f1; fhalf] ++ [f2]). apply C90_self; [apply by_itself_ok| |vm_compute; intuition congruence].
    constructor; [reflexivity|]. constructor; [reflexivity|constructor].
  - apply (C90_nan _ _ _ 1); [reflexivity|cbn; lia|cbn; lia|reflexivity].
Qed.

Print Assumptions C90_self.
Print Assumptions C90_empty.
Print Assumptions C90_nan.
Print Assumptions C90_not_negative.
Print Assumptions C90_symmetric.
