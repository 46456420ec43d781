(** * Arithmetic on f32 commutes with negation, up to the sign of zeros *)
From Coq Require Import ZArith List Bool Lia Reals Lra Floats.SpecFloat.
From Flocq Require Import Core BinarySingleNaN.
From Verif Require Import Model.Base Model.F32 Model.Parabola Model.Sample Spec.Recording Proofs.BaseFacts Proofs.FloatFacts Proofs.FrameFacts.
Open Scope Z_scope.

(** A number without the sign of a zero. *)
Definition unsigned_zero (x : spec_float) : spec_float := match x with S754_zero _ => S754_zero false | _ => x end.
Definition flipped (x y : f32) : Prop := unsigned_zero (B2SF y) = unsigned_zero (SFopp (B2SF x)).

Lemma round_aux_flip s m e l :
  binary_round_aux 24 128 mode_NE (negb s) m e l = SFopp (binary_round_aux 24 128 mode_NE s m e l).
Proof.
  unfold binary_round_aux. destruct (shr_fexp 24 128 m e l) as [r e1]. cbn [choice_mode].
  destruct (shr_fexp 24 128 _ e1 loc_Exact) as [r2 e2]. destruct (shr_m r2); try reflexivity.
  unfold binary_fit_aux. destruct (e2 <=? 128 - 24); reflexivity.
Qed.
Lemma round_flip s m e : binary_round 24 128 mode_NE (negb s) m e = SFopp (binary_round 24 128 mode_NE s m e).
Proof. unfold binary_round. destruct (shl_align_fexp 24 128 m e) as [mz ez]. apply round_aux_flip. Qed.
Lemma normalize_flip m e s1 s2 : flipped (@binary_normalize 24 128 prec_pos prec_lt_emax mode_NE m e s1) (@binary_normalize 24 128 prec_pos prec_lt_emax mode_NE (- m) e s2).
Proof.
  unfold flipped. destruct m as [|m|m]; cbn [Z.opp binary_normalize].
  - reflexivity.
  - rewrite !B2SF_SF2B. f_equal. exact (round_flip false m e).
  - rewrite !B2SF_SF2B. f_equal. exact (round_flip true m e).
Qed.
Lemma of_Z_flip n : flipped (f32_of_Z n) (f32_of_Z (- n)).
Proof. apply normalize_flip. Qed.
Lemma Bopp_flip x : flipped x (Bopp x).
Proof. destruct x; reflexivity. Qed.

Ltac cases H x y :=
  destruct x, y; unfold flipped in H; cbn [B2SF SFopp unsigned_zero] in H; try discriminate H;
  try (injection H; clear H; intros; subst).
Lemma mul_flip x x' y : flipped x x' -> flipped (fmul x y) (fmul x' y).
Proof.
  intros H. cases H x x'; destruct y; unfold flipped, fmul; cbn [Bmult]; rewrite ?B2SF_SF2B; cbn [B2SF SFopp unsigned_zero]; auto;
    try (rewrite ?negb_xorb_l; reflexivity).
  rewrite <- negb_xorb_l. f_equal. apply round_aux_flip.
Qed.
Lemma mul_comm_B x y : B2SF (fmul x y) = B2SF (fmul y x).
Proof.
  destruct x as [a|a| |a m e Hm], y as [b|b| |b n f Hn]; unfold fmul; cbn [Bmult]; rewrite ?B2SF_SF2B; cbn [B2SF]; rewrite ?(xorb_comm a b); auto.
  rewrite (Pos.mul_comm m n), (Z.add_comm e f). reflexivity.
Qed.
Lemma mul_flip_r x y y' : flipped y y' -> flipped (fmul x y) (fmul x y').
Proof. intros H. unfold flipped. rewrite (mul_comm_B x y), (mul_comm_B x y'). now apply mul_flip. Qed.
Lemma plus_naive_flip sx mx ex sy my ey ez : Fplus_naive (negb sx) mx ex (negb sy) my ey ez = - Fplus_naive sx mx ex sy my ey ez.
Proof. unfold Fplus_naive. destruct sx, sy; cbn [negb cond_Zopp]; lia. Qed.
Lemma add_flip x x' y y' : flipped x x' -> flipped y y' -> flipped (fadd x y) (fadd x' y').
Proof.
  intros H1 H2. cases H1 x x'; cases H2 y y'; unfold fadd; cbn [Bplus]; unfold flipped;
    first [rewrite plus_naive_flip; apply normalize_flip | repeat match goal with b : bool |- _ => destruct b end; reflexivity].
Qed.
Lemma sub_flip x x' y y' : flipped x x' -> flipped y y' -> flipped (fsub x y) (fsub x' y').
Proof.
  intros H1 H2. cases H1 x x'; cases H2 y y'; unfold fsub; cbn [Bminus]; unfold flipped;
    first [rewrite plus_naive_flip; apply normalize_flip | repeat match goal with b : bool |- _ => destruct b end; reflexivity].
Qed.

Lemma clamp_flip x x' : flipped x x' -> flipped (fclamp x fm1 f1) (fclamp x' fm1 f1).
Proof.
  intros H.
  assert (E1 : B2SF f1 = S754_finite false 8388608 (-23)) by (vm_compute; reflexivity).
  assert (E2 : B2SF fm1 = S754_finite true 8388608 (-23)) by (vm_compute; reflexivity).
  assert (L11 : flt f1 fm1 = false) by (vm_compute; reflexivity).
  assert (L1 : flt f1 f1 = false) by (vm_compute; reflexivity).
  assert (Fm : flipped f1 fm1) by (unfold flipped; rewrite E1, E2; reflexivity).
  assert (Fp : flipped fm1 f1) by (unfold flipped; rewrite E1, E2; reflexivity).
  assert (A : flt x' fm1 = flt f1 x).
  { unfold flt, Bltb. rewrite E1, E2. clear - H. cases H x x'; cbn [B2SF]; repeat match goal with b : bool |- _ => destruct b end; try reflexivity.
    unfold SFltb. cbn [SFcompare]. rewrite (Z.compare_antisym (-23) e). destruct (-23 ?= e); cbn [CompOpp]; try reflexivity.
    rewrite (Pos.compare_cont_antisym m 8388608 Eq). cbn [CompOpp]. destruct (Pos.compare_cont Eq m 8388608); reflexivity. }
  assert (B : flt f1 x' = flt x fm1).
  { unfold flt, Bltb. rewrite E1, E2. clear - H. cases H x x'; cbn [B2SF]; repeat match goal with b : bool |- _ => destruct b end; try reflexivity.
    unfold SFltb. cbn [SFcompare negb]. rewrite (Z.compare_antisym (-23) e). destruct (-23 ?= e); cbn [CompOpp]; try reflexivity.
    rewrite (Pos.compare_cont_antisym m 8388608 Eq). cbn [CompOpp]. destruct (Pos.compare_cont Eq m 8388608); reflexivity. }
  unfold fclamp. rewrite A. destruct (flt f1 x) eqn:Q1; destruct (flt x fm1) eqn:Q2; rewrite ?L11, ?L1, ?Q1, ?B, ?Q2; auto.
  exfalso. unfold flt, Bltb in Q1, Q2. rewrite E1 in Q1. rewrite E2 in Q2. clear - Q1 Q2. destruct x as [s|s| |s m e He]; try destruct s; unfold SFltb in Q1, Q2; cbn [B2SF SFcompare] in Q1, Q2; discriminate.
Qed.

Lemma trunc_flip x x' : flipped x x' -> Btrunc x' = - Btrunc x.
Proof.
  intros H. cases H x x'; cbn [Btrunc]; try reflexivity.
  destruct s; cbn [negb cond_Zopp].
  - rewrite Z.opp_involutive. reflexivity.
  - reflexivity.
Qed.
Lemma as_i16_flip x x' : flipped x x' -> -32767 <= f32_as_i16 x -> -32767 <= f32_as_i16 x' -> f32_as_i16 x' = - f32_as_i16 x.
Proof.
  intros H. pose proof (trunc_flip x x' H) as T. unfold f32_as_i16, f32_to_int, zclamp.
  cases H x x'; try (intros; reflexivity); try rewrite T.
  - destruct s; cbn [negb] in *; lia.
  - repeat match goal with H : _ <= _ |- _ => revert H end. rewrite ?T. generalize (Btrunc (B754_finite s m e e0 : f32)). intros t.
    destruct (Z.ltb_spec t (-32768)), (Z.ltb_spec 32767 t), (Z.ltb_spec (- t) (-32768)), (Z.ltb_spec 32767 (- t)); intros; lia.
Qed.
Lemma truncate_flip x x' : flipped x x' -> truncate_sample x' = - truncate_sample x.
Proof.
  intros H. pose proof (truncate_range x). pose proof (truncate_range x'). unfold truncate_sample in *.
  apply as_i16_flip; try lia. apply mul_flip. now apply clamp_flip.
Qed.
Lemma predict_flip a b c : predict (- a) (- b) (- c) = - predict a b c.
Proof.
  unfold predict. apply truncate_flip. unfold parabola_eval, compute_coefs.
  pose proof (mul_flip _ _ NORMALIZE_FACTOR (of_Z_flip a)) as A. pose proof (mul_flip _ _ NORMALIZE_FACTOR (of_Z_flip b)) as B.
  pose proof (mul_flip _ _ NORMALIZE_FACTOR (of_Z_flip c)) as D. fold (normalize_sample a) (normalize_sample (- a)) in A.
  fold (normalize_sample b) (normalize_sample (- b)) in B. fold (normalize_sample c) (normalize_sample (- c)) in D.
  revert A B D. generalize (normalize_sample a) (normalize_sample (- a)) (normalize_sample b) (normalize_sample (- b)) (normalize_sample c) (normalize_sample (- c)).
  intros x x' y y' z z' A B D. pose proof (sub_flip _ _ _ _ B A) as E. pose proof (sub_flip _ _ _ _ D A) as F.
  pose proof (mul_flip _ _ fhalf (sub_flip _ _ _ _ (mul_flip_r f4 _ _ E) F)) as G.
  pose proof (mul_flip _ _ fhalf (sub_flip _ _ _ _ F (mul_flip_r f2 _ _ E))) as H.
  exact (add_flip _ _ _ _ A (mul_flip _ _ f3 (add_flip _ _ _ _ G (mul_flip _ _ f3 H)))).
Qed.
Lemma flipped_R x y : flipped x y -> B2R y = (- B2R x)%R /\ is_finite y = is_finite x.
Proof.
  intros H. cases H x y; cbn [B2R is_finite]; split; try reflexivity; try lra.
  rewrite <- F2R_Zopp. f_equal. f_equal. destruct s; reflexivity.
Qed.
