(** * Error bounds for the f32 operations the crate uses *)
From Coq Require Import ZArith Bool Reals Lra Lia Psatz.
From Flocq Require Import Core IEEE754.BinarySingleNaN.
From Verif Require Import Model.Base Model.F32 Model.Sample Model.Parabola Proofs.BaseFacts.
Open Scope R_scope.

Definition fin (x : f32) : Prop := is_finite x = true.
Definition val (x : f32) : R := B2R x.

Notation fexp32 := (SpecFloat.fexp 24 128).
Notation rnd32 := (round radix2 fexp32 (round_mode mode_NE)).

Local Instance vexp : Valid_exp fexp32 := fexp_correct 24 128 prec_pos.

Lemma fexp_le k : (-125 <= k)%Z -> fexp32 k = (k - 24)%Z.
Proof. intros. unfold SpecFloat.fexp, SpecFloat.emin. lia. Qed.

(** Rounding error when the magnitude is below [2^k]. *)
Lemma rnd_err x k : (-125 <= k)%Z -> Rabs x < bpow radix2 k -> Rabs (rnd32 x - x) <= bpow radix2 (k - 25).
Proof.
  intros Hk Hx. destruct (Req_dec x 0) as [->|Hne].
  { rewrite round_0 by apply valid_rnd_N. replace (0 - 0) with 0 by ring. rewrite Rabs_R0. apply bpow_ge_0. }
  eapply Rle_trans; [apply error_le_half_ulp; exact _|].
  rewrite ulp_neq_0 by auto.
  replace (bpow radix2 (k - 25)) with (/ 2 * bpow radix2 (k - 24)).
  2: { replace (k - 24)%Z with (1 + (k - 25))%Z by ring. rewrite bpow_plus. change (bpow radix2 1) with 2. field. }
  apply Rmult_le_compat_l; [lra|]. apply bpow_le.
  assert (mag radix2 x <= k)%Z by (apply mag_le_bpow; auto).
  unfold cexp, SpecFloat.fexp, SpecFloat.emin. lia.
Qed.
Lemma rnd_bound x k : (-125 <= k)%Z -> Rabs x <= bpow radix2 k -> Rabs (rnd32 x) <= bpow radix2 k.
Proof.
  intros Hk Hx. apply abs_round_le_generic; auto; try exact _.
  apply generic_format_bpow. rewrite fexp_le by lia. lia.
Qed.
Lemma rnd_exact_bound x y k : (-125 <= k)%Z -> 0 <= y -> generic_format radix2 fexp32 y ->
  Rabs x <= y -> Rabs (rnd32 x) <= y.
Proof. intros. apply abs_round_le_generic; auto; exact _. Qed.

Lemma no_overflow x k : (-125 <= k <= 127)%Z -> Rabs x < bpow radix2 k ->
  Rlt_bool (Rabs (rnd32 x)) (bpow radix2 128) = true.
Proof.
  intros Hk Hx. apply Rlt_bool_true.
  eapply Rle_lt_trans; [apply (rnd_bound x k); [lia|lra]|]. apply bpow_lt. lia.
Qed.

Lemma fadd_R x y k : fin x -> fin y -> (-125 <= k <= 127)%Z -> Rabs (val x + val y) < bpow radix2 k ->
  fin (fadd x y) /\ val (fadd x y) = rnd32 (val x + val y).
Proof.
  intros Hx Hy Hk H. pose proof (Bplus_correct 24 128 prec_pos prec_lt_emax mode_NE x y Hx Hy) as C.
  unfold val in *. rewrite (no_overflow _ k) in C by auto. unfold fadd, fin. tauto.
Qed.
Lemma fsub_R x y k : fin x -> fin y -> (-125 <= k <= 127)%Z -> Rabs (val x - val y) < bpow radix2 k ->
  fin (fsub x y) /\ val (fsub x y) = rnd32 (val x - val y).
Proof.
  intros Hx Hy Hk H. pose proof (Bminus_correct 24 128 prec_pos prec_lt_emax mode_NE x y Hx Hy) as C.
  unfold val in *. rewrite (no_overflow _ k) in C by auto. unfold fsub, fin. tauto.
Qed.
Lemma fmul_R x y k : fin x -> fin y -> (-125 <= k <= 127)%Z -> Rabs (val x * val y) < bpow radix2 k ->
  fin (fmul x y) /\ val (fmul x y) = rnd32 (val x * val y).
Proof.
  intros Hx Hy Hk H. pose proof (Bmult_correct 24 128 prec_pos prec_lt_emax mode_NE x y) as C.
  unfold val, fin in *. rewrite (no_overflow _ k) in C by auto. unfold fmul.
  destruct C as (C1 & C2 & _). rewrite Hx, Hy in C2. auto.
Qed.
Lemma fdiv_R x y k : fin x -> val y <> 0 -> (-125 <= k <= 127)%Z -> Rabs (val x / val y) < bpow radix2 k ->
  fin (fdiv x y) /\ val (fdiv x y) = rnd32 (val x / val y).
Proof.
  intros Hx Hy Hk H. pose proof (Bdiv_correct 24 128 prec_pos prec_lt_emax mode_NE x y Hy) as C.
  unfold val, fin in *. rewrite (no_overflow _ k) in C by auto. unfold fdiv.
  destruct C as (C1 & C2 & _). rewrite Hx in C2. auto.
Qed.

(** The same with the error bound. *)
Lemma fadd_E x y k : fin x -> fin y -> (-125 <= k <= 127)%Z -> Rabs (val x + val y) < bpow radix2 k ->
  fin (fadd x y) /\ Rabs (val (fadd x y) - (val x + val y)) <= bpow radix2 (k - 25).
Proof. intros Hx Hy Hk H. destruct (fadd_R x y k Hx Hy Hk H) as [F ->]. split; auto. apply rnd_err; auto; lia. Qed.
Lemma fsub_E x y k : fin x -> fin y -> (-125 <= k <= 127)%Z -> Rabs (val x - val y) < bpow radix2 k ->
  fin (fsub x y) /\ Rabs (val (fsub x y) - (val x - val y)) <= bpow radix2 (k - 25).
Proof. intros Hx Hy Hk H. destruct (fsub_R x y k Hx Hy Hk H) as [F ->]. split; auto. apply rnd_err; auto; lia. Qed.
Lemma fmul_E x y k : fin x -> fin y -> (-125 <= k <= 127)%Z -> Rabs (val x * val y) < bpow radix2 k ->
  fin (fmul x y) /\ Rabs (val (fmul x y) - val x * val y) <= bpow radix2 (k - 25).
Proof. intros Hx Hy Hk H. destruct (fmul_R x y k Hx Hy Hk H) as [F ->]. split; auto. apply rnd_err; auto; lia. Qed.
Lemma fdiv_E x y k : fin x -> val y <> 0 -> (-125 <= k <= 127)%Z -> Rabs (val x / val y) < bpow radix2 k ->
  fin (fdiv x y) /\ Rabs (val (fdiv x y) - val x / val y) <= bpow radix2 (k - 25).
Proof. intros Hx Hy Hk H. destruct (fdiv_R x y k Hx Hy Hk H) as [F ->]. split; auto. apply rnd_err; auto; lia. Qed.

(** ** Representable values *)
Lemma format_F2R m e : (Z.abs m <= 2 ^ 24)%Z -> (-149 <= e)%Z -> generic_format radix2 fexp32 (F2R (Float radix2 m e)).
Proof.
  intros Hm He. destruct (Z.eq_dec m 0) as [->|Hne].
  { rewrite F2R_0. apply generic_format_0. }
  destruct (Z.eq_dec (Z.abs m) (2 ^ 24)) as [E|].
  - assert (G : generic_format radix2 fexp32 (bpow radix2 (24 + e))).
    { apply generic_format_bpow. unfold SpecFloat.fexp, SpecFloat.emin. lia. }
    assert (E2 : F2R (Float radix2 m e) = bpow radix2 (24 + e) \/ F2R (Float radix2 m e) = - bpow radix2 (24 + e)).
    { unfold F2R. cbn [Fnum Fexp]. rewrite bpow_plus. change (bpow radix2 24) with (IZR (2 ^ 24)).
      destruct (Z.abs_eq_or_opp m) as [A|A]; rewrite A in E; [left|right].
      - now rewrite E.
      - replace m with (- 2 ^ 24)%Z by lia. rewrite opp_IZR. ring. }
    destruct E2 as [-> | ->]; auto. now apply generic_format_opp.
  - apply generic_format_F2R. intros _. unfold cexp, SpecFloat.fexp, SpecFloat.emin.
    rewrite mag_F2R by auto.
    assert (mag radix2 (IZR m) <= 24)%Z.
    { apply mag_le_bpow; [now apply IZR_neq|]. rewrite <- abs_IZR. change (bpow radix2 24) with (IZR (2 ^ 24)).
      apply IZR_lt. lia. }
    lia.
Qed.
Lemma format_IZR n : (Z.abs n <= 2 ^ 24)%Z -> generic_format radix2 fexp32 (IZR n).
Proof.
  intros H. replace (IZR n) with (F2R (Float radix2 n 0)); [apply format_F2R; auto; lia|].
  unfold F2R. cbn [Fnum Fexp]. change (bpow radix2 0) with 1. ring.
Qed.
Lemma rnd_F2R m e : (Z.abs m <= 2 ^ 24)%Z -> (-149 <= e)%Z -> rnd32 (F2R (Float radix2 m e)) = F2R (Float radix2 m e).
Proof. intros. apply round_generic; [apply valid_rnd_N|now apply format_F2R]. Qed.
Lemma rnd_IZR n : (Z.abs n <= 2 ^ 24)%Z -> rnd32 (IZR n) = IZR n.
Proof. intros. apply round_generic; [apply valid_rnd_N|now apply format_IZR]. Qed.

Lemma flit_R m e : (Z.abs m <= 2 ^ 24)%Z -> (-149 <= e)%Z -> Rabs (F2R (Float radix2 m e)) < bpow radix2 127 ->
  fin (flit m e) /\ val (flit m e) = F2R (Float radix2 m e).
Proof.
  intros Hm He Hb.
  pose proof (binary_normalize_correct 24 128 prec_pos prec_lt_emax mode_NE m e false) as C. cbv zeta in C.
  rewrite (no_overflow _ 127) in C by (auto; lia). unfold fin, val, flit.
  rewrite rnd_F2R in C by auto. tauto.
Qed.
Lemma f32_of_Z_R n : (Z.abs n <= 2 ^ 24)%Z -> fin (f32_of_Z n) /\ val (f32_of_Z n) = IZR n.
Proof.
  intros H. assert (E : F2R (Float radix2 n 0) = IZR n).
  { unfold F2R. cbn [Fnum Fexp]. change (bpow radix2 0) with 1. ring. }
  unfold f32_of_Z. rewrite <- E. apply flit_R; auto; [lia|]. rewrite E, <- abs_IZR.
  eapply Rle_lt_trans; [apply IZR_le; exact H|].
  change (IZR (2 ^ 24)) with (bpow radix2 24). apply bpow_lt. lia.
Qed.

Lemma val_f0 : fin f0 /\ val f0 = 0. Proof. apply f32_of_Z_R; lia. Qed.
Lemma val_f1 : fin f1 /\ val f1 = 1. Proof. apply f32_of_Z_R; lia. Qed.
Lemma val_fm1 : fin fm1 /\ val fm1 = -1. Proof. apply f32_of_Z_R; lia. Qed.
Lemma val_f2 : fin f2 /\ val f2 = 2. Proof. apply f32_of_Z_R; lia. Qed.
Lemma val_f3 : fin f3 /\ val f3 = 3. Proof. apply f32_of_Z_R; lia. Qed.
Lemma val_f4 : fin f4 /\ val f4 = 4. Proof. apply f32_of_Z_R; lia. Qed.
Lemma val_f32767 : fin (f32_of_Z 32767) /\ val (f32_of_Z 32767) = 32767. Proof. apply f32_of_Z_R; lia. Qed.
Lemma val_fhalf : fin fhalf /\ val fhalf = / 2.
Proof.
  assert (E : F2R (Float radix2 1 (-1)) = / 2) by (unfold F2R; cbn; lra).
  unfold fhalf. rewrite <- E. apply flit_R; try lia. rewrite E.
  rewrite Rabs_pos_eq by lra. eapply Rlt_trans; [|apply (bpow_lt radix2 1 127); lia].
  change (bpow radix2 1) with 2. lra.
Qed.

(** ** Clamping *)
Lemma flt_R x y : fin x -> fin y -> flt x y = Rlt_bool (val x) (val y).
Proof. apply Bltb_correct. Qed.
Lemma fclamp_R x : fin x ->
  fin (fclamp x fm1 f1) /\ val (fclamp x fm1 f1) = Rmax (-1) (Rmin 1 (val x)).
Proof.
  intros Hx. destruct val_f1 as [F1 V1], val_fm1 as [Fm Vm].
  unfold fclamp. rewrite (flt_R x fm1) by auto. rewrite Vm.
  destruct (Rlt_bool_spec (val x) (-1)).
  - rewrite (flt_R f1 fm1), V1, Vm by auto. rewrite Rlt_bool_false by lra.
    split; auto. rewrite Vm. rewrite Rmin_right, Rmax_left; lra.
  - rewrite (flt_R f1 x), V1 by auto. destruct (Rlt_bool_spec 1 (val x)).
    + split; auto. rewrite V1, Rmin_left, Rmax_right; lra.
    + split; auto. rewrite Rmin_right, Rmax_right; lra.
Qed.
(** Infinities and NaN. *)
Lemma fclamp_cases x :
  fin (fclamp x fm1 f1) \/ x = B754_nan.
Proof.
  destruct x as [s|s| |s m e B]; auto; left.
  - now apply fclamp_R.
  - destruct s; reflexivity.
  - now apply fclamp_R.
Qed.
Lemma fclamp_bound x : x <> B754_nan -> fin (fclamp x fm1 f1) /\ -1 <= val (fclamp x fm1 f1) <= 1.
Proof.
  intros Hn. destruct val_f1 as [F1 V1], val_fm1 as [Fm Vm].
  assert (K : fin x -> fin (fclamp x fm1 f1) /\ -1 <= val (fclamp x fm1 f1) <= 1).
  { intros Hx. destruct (fclamp_R x Hx) as [F ->]. split; auto.
    split; [apply Rmax_l|]. apply Rmax_lub; [lra|apply Rmin_l]. }
  destruct x as [s|s| |s m e B]; try congruence.
  - now apply K.
  - destruct s.
    + change (fclamp (B754_infinity true) fm1 f1) with fm1. rewrite Vm. split; auto; lra.
    + change (fclamp (B754_infinity false) fm1 f1) with f1. rewrite V1. split; auto; lra.
  - now apply K.
Qed.

(** ** Truncation *)
Lemma Btrunc_R x : Btrunc x = Ztrunc (val x).
Proof.
  apply eq_IZR. rewrite (Btrunc_correct 24 128 prec_lt_emax). unfold val, round, scaled_mantissa, cexp, FIX_exp, F2R.
  cbn [Fnum Fexp]. change (- 0)%Z with 0%Z. change (bpow radix2 0) with 1. rewrite !Rmult_1_r. reflexivity.
Qed.
Lemma as_i16_R x : fin x -> Rabs (val x) < 32768 -> f32_as_i16 x = Ztrunc (val x).
Proof.
  intros Hx Hb. apply Rabs_lt_inv in Hb. unfold f32_as_i16, f32_to_int.
  assert (T : (-32768 <= Ztrunc (val x) <= 32767)%Z).
  { destruct (Rle_lt_dec 0 (val x)).
    - rewrite Ztrunc_floor by auto. split.
      + apply Z.le_trans with 0%Z; [lia|]. apply Zfloor_lub. auto.
      + apply Z.lt_succ_r. apply lt_IZR. eapply Rle_lt_trans; [apply Zfloor_lb|]. cbn. lra.
    - rewrite Ztrunc_ceil by lra. split.
      + apply Z.lt_le_incl. apply lt_IZR. eapply Rlt_le_trans; [|apply Zceil_ub]. lra.
      + apply Z.le_trans with 0%Z; [|lia]. apply Zceil_glb. cbn. lra. }
  destruct x as [s|s| |s m e B]; try discriminate Hx; rewrite Btrunc_R; now apply zclamp_id.
Qed.
Lemma Ztrunc_err x : Rabs (IZR (Ztrunc x) - x) < 1.
Proof.
  destruct (Rle_lt_dec 0 x).
  - rewrite Ztrunc_floor by auto. pose proof (Zfloor_lb x). pose proof (Zfloor_ub x). apply Rabs_lt. lra.
  - rewrite Ztrunc_ceil by lra. pose proof (Zceil_ub x).
    assert (IZR (Zceil x) < x + 1) by (unfold Zceil; rewrite opp_IZR; pose proof (Zfloor_ub (- x)); lra).
    apply Rabs_lt. lra.
Qed.

(** The scaled value before truncation. *)
Lemma scaled_R y : fin y -> -1 <= val y <= 1 ->
  fin (fmul y (f32_of_Z 32767)) /\ Rabs (val (fmul y (f32_of_Z 32767))) <= 32767 /\
  Rabs (val (fmul y (f32_of_Z 32767)) - val y * 32767) <= / 1024.
Proof.
  intros Hy Hb. destruct val_f32767 as [F V].
  assert (B : Rabs (val y * 32767) <= 32767).
  { rewrite Rabs_mult, (Rabs_pos_eq 32767) by lra.
    assert (Rabs (val y) <= 1) by (apply Rabs_le; lra). nra. }
  destruct (fmul_R y (f32_of_Z 32767) 15) as [F' E]; auto; [lia| |].
  { rewrite V. change (bpow radix2 15) with 32768. lra. }
  split; auto. rewrite E, V. split.
  - apply abs_round_le_generic; auto; try exact _. apply format_IZR. lia.
  - replace (/ 1024) with (bpow radix2 (15 - 25)) by (cbn; lra). apply rnd_err; [lia|].
    change (bpow radix2 15) with 32768. lra.
Qed.

Lemma Ztrunc_abs_le x n : Rabs x <= IZR n -> (Z.abs (Ztrunc x) <= n)%Z.
Proof.
  intros H. apply le_IZR. rewrite abs_IZR.
  destruct (Rle_lt_dec 0 x).
  - rewrite Rabs_pos_eq in H by auto. rewrite Ztrunc_floor by auto.
    assert (0 <= Zfloor x)%Z by (apply Zfloor_lub; auto).
    rewrite Rabs_pos_eq by (apply IZR_le; auto). pose proof (Zfloor_lb x). lra.
  - rewrite Rabs_left in H by auto. rewrite Ztrunc_ceil by lra.
    assert (Zceil x <= 0)%Z by (apply Zceil_glb; cbn; lra).
    rewrite Rabs_left1 by (apply IZR_le; auto). pose proof (Zceil_ub x). lra.
Qed.

(** [truncate_sample] of any f32 is within +-32767; NaN becomes 0. *)
Lemma truncate_range x : (-32767 <= truncate_sample x <= 32767)%Z.
Proof.
  unfold truncate_sample.
  destruct (fclamp_cases x) as [Hf | ->]; [|now vm_compute; split].
  assert (Hn : x <> B754_nan) by (intros ->; discriminate Hf).
  destruct (fclamp_bound x Hn) as [F B].
  destruct (scaled_R _ F B) as (F' & B' & _).
  rewrite as_i16_R by (auto; lra).
  pose proof (Ztrunc_abs_le _ 32767 B'). lia.
Qed.
Lemma truncate_nan : truncate_sample B754_nan = 0%Z.
Proof. reflexivity. Qed.

(** ** normalize_sample *)
Lemma normalize_factor : fin NORMALIZE_FACTOR /\ 0 < val NORMALIZE_FACTOR /\ 
  val NORMALIZE_FACTOR = F2R (Float radix2 8388864 (-38)).
Proof.
  assert (E : NORMALIZE_FACTOR = flit 8388864 (-38)) by (apply B2SF_inj; vm_compute; reflexivity).
  rewrite E. assert (V : F2R (Float radix2 8388864 (-38)) = 8388864 / 274877906944) by (unfold F2R; cbn; lra).
  assert (FV : fin (flit 8388864 (-38)) /\ val (flit 8388864 (-38)) = F2R (Float radix2 8388864 (-38))).
  { apply flit_R; try lia. rewrite V, Rabs_pos_eq by lra.
    eapply Rlt_trans; [|apply (bpow_lt radix2 1 127); lia]. change (bpow radix2 1) with 2. lra. }
  destruct FV as [F VV]. split; auto. rewrite VV. split; auto. rewrite V. lra.
Qed.
Lemma normalize_factor_val : val NORMALIZE_FACTOR = 8388864 / 274877906944.
Proof.
  destruct normalize_factor as (_ & _ & ->). unfold F2R. cbn. lra.
Qed.

Lemma normalize_R n : (-32768 <= n <= 32768)%Z ->
  fin (normalize_sample n) /\ Rabs (val (normalize_sample n) - IZR n / 32767) <= / 8000000.
Proof.
  intros Hn. destruct (f32_of_Z_R n) as [F V]; [lia|]. destruct normalize_factor as (FN & _).
  pose proof normalize_factor_val as VN.
  assert (Hb : -32768 <= IZR n <= 32768) by (split; apply IZR_le; lia).
  unfold normalize_sample.
  destruct (fmul_E (f32_of_Z n) NORMALIZE_FACTOR 1 F FN) as [F' E]; [lia| |].
  { rewrite V, VN. change (bpow radix2 1) with 2. apply Rabs_lt. lra. }
  split; auto. rewrite V, VN in E. change (bpow radix2 (1 - 25)) with (/ 16777216) in E.
  apply Rabs_le_inv in E. apply Rabs_le. lra.
Qed.

(** In range there is nothing to clamp. *)
Lemma normalize_unit n : (-32767 <= n <= 32767)%Z -> -1 <= val (normalize_sample n) <= 1.
Proof.
  intros Hn. destruct (f32_of_Z_R n) as [F V]; [lia|]. destruct normalize_factor as (FN & _).
  pose proof normalize_factor_val as VN.
  assert (Hb : -32767 <= IZR n <= 32767) by (split; apply IZR_le; lia).
  unfold normalize_sample.
  destruct (fmul_R (f32_of_Z n) NORMALIZE_FACTOR 1 F FN) as [_ E]; [lia| |].
  { rewrite V, VN. change (bpow radix2 1) with 2. apply Rabs_lt. lra. }
  apply Rabs_le_inv. rewrite E, V, VN.
  assert (R32 : rnd32 (32767 * (8388864 / 274877906944)) = 1).
  { destruct (fmul_R (f32_of_Z 32767) NORMALIZE_FACTOR 1) as [_ E1]; [apply val_f32767|auto|lia| |].
    { rewrite (proj2 val_f32767), VN. change (bpow radix2 1) with 2. apply Rabs_lt. lra. }
    rewrite (proj2 val_f32767), VN in E1. rewrite <- E1.
    assert (X : fmul (f32_of_Z 32767) NORMALIZE_FACTOR = f1) by (apply B2SF_inj; vm_compute; reflexivity).
    rewrite X. apply val_f1. }
  assert (RM : rnd32 (- (32767 * (8388864 / 274877906944))) = -1).
  { rewrite round_NE_opp. cbn [round_mode] in R32. rewrite R32. reflexivity. }
  apply Rabs_le. split.
  - apply Rle_trans with (-1); [lra|]. rewrite <- RM. apply round_le; [exact _|apply valid_rnd_N|lra].
  - rewrite <- R32. apply round_le; [exact _|apply valid_rnd_N|lra].
Qed.
Lemma clamp_normalize n : (-32767 <= n <= 32767)%Z ->
  fclamp (normalize_sample n) fm1 f1 = normalize_sample n.
Proof.
  intros Hn. destruct (normalize_R n) as [F _]; [lia|]. pose proof (normalize_unit n Hn).
  destruct val_f1 as [F1 V1], val_fm1 as [Fm Vm].
  unfold fclamp. rewrite (flt_R _ fm1), Vm by auto. rewrite Rlt_bool_false by lra.
  rewrite (flt_R f1), V1 by auto. now rewrite Rlt_bool_false by lra.
Qed.
