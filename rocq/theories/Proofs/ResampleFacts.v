(** * Linear interpolation in f32 *)
From Coq Require Import ZArith List Bool Reals Lra Lia Psatz.
From Flocq Require Import Core IEEE754.BinarySingleNaN.
From Verif Require Import Model.Base Model.F32 Model.Resample Spec.Resample Proofs.BaseFacts Proofs.FloatFacts Proofs.SeekTarget.
Import ListNotations.
Open Scope R_scope.

Local Instance vexp' : Valid_exp fexp32 := fexp_correct 24 128 prec_pos.

(** ** Casts of any length *)
Lemma cast_any n : (0 <= n <= 2 ^ 63)%Z ->
  fin (f32_of_Z n) /\ 0 <= val (f32_of_Z n) <= bpow radix2 63 /\ ((1 <= n)%Z -> 1 <= val (f32_of_Z n)).
Proof.
  intros H. assert (E : F2R (Float radix2 n 0) = IZR n).
  { unfold F2R. cbn [Fnum Fexp]. change (bpow radix2 0) with 1. ring. }
  assert (B : 0 <= IZR n <= bpow radix2 63).
  { split; [apply IZR_le; lia|]. change (bpow radix2 63) with (IZR (2 ^ 63)). apply IZR_le. lia. }
  assert (G : forall k, (0 <= k <= 63)%Z -> generic_format radix2 fexp32 (bpow radix2 k)).
  { intros k Hk. apply generic_format_bpow. rewrite fexp_le by lia. lia. }
  pose proof (binary_normalize_correct 24 128 prec_pos prec_lt_emax mode_NE n 0 false) as C. cbv zeta in C.
  rewrite E in C. rewrite (no_overflow _ 64) in C; [|lia|].
  2: { rewrite Rabs_pos_eq by lra. eapply Rle_lt_trans; [apply B|]. apply bpow_lt. lia. }
  destruct C as (C1 & C2 & _). unfold fin, val, f32_of_Z, flit. rewrite C1. split; [exact C2|]. split; [split|].
  - apply round_ge_generic; [exact _|apply valid_rnd_N|apply generic_format_0|lra].
  - apply round_le_generic; [exact _|apply valid_rnd_N|apply G; lia|lra].
  - intros H1. apply round_ge_generic; [exact _|apply valid_rnd_N| |apply IZR_le; lia].
    change 1 with (bpow radix2 0). apply G. lia.
Qed.

(** ** Whole and fractional part *)
Lemma round_fix md x : round radix2 (FIX_exp 0) (round_mode md) x = IZR (round_mode md x).
Proof.
  unfold round, scaled_mantissa, cexp, FIX_exp, F2R. cbn [Fnum Fexp]. change (- 0)%Z with 0%Z.
  change (bpow radix2 0) with 1. now rewrite !Rmult_1_r.
Qed.
Lemma floor_R x : fin x -> fin (ffloor x) /\ val (ffloor x) = IZR (Zfloor (val x)).
Proof.
  intros H. destruct (Bnearbyint_correct 24 128 prec_lt_emax mode_DN x) as (A & B & _).
  unfold fin, val, ffloor. rewrite B, A, round_fix. split; auto.
Qed.
Lemma trunc_R x : fin x -> 0 <= val x -> fin (ftrunc x) /\ val (ftrunc x) = IZR (Zfloor (val x)).
Proof.
  intros H N. destruct (Bnearbyint_correct 24 128 prec_lt_emax mode_ZR x) as (A & B & _).
  unfold fin, val, ftrunc in *. rewrite B, A, round_fix. split; auto. cbn [round_mode]. now rewrite Ztrunc_floor.
Qed.
Lemma frac_format x : fin x -> 0 <= val x -> generic_format radix2 fexp32 (val x - IZR (Zfloor (val x))).
Proof.
  intros H N. destruct x as [s|s| |s m e Bd]; try discriminate H.
  - cbn [val B2R]. change (Zfloor 0) with (Zfloor (IZR 0)). rewrite Zfloor_IZR, Rminus_0_r. apply generic_format_0.
  - destruct s.
    { exfalso. cbn [val B2R cond_Zopp] in N. pose proof (F2R_lt_0 radix2 (Float radix2 (Z.neg m) e)). cbn [Fnum] in *. 
      specialize (H0 ltac:(lia)). cbn in N, H0. lra. }
    unfold val. change (B2R (B754_finite false m e Bd)) with (F2R (Float radix2 (Z.pos m) e)).
    clear H N. apply andb_prop in Bd. destruct Bd as [Bc Be]. apply Z.leb_le in Be.
    unfold SpecFloat.canonical_mantissa in Bc. apply Zeq_bool_eq in Bc.
    assert (Hm : (Z.pos m < 2 ^ 24)%Z /\ (-149 <= e)%Z).
    { rewrite Digits.Zpos_digits2_pos in Bc. unfold SpecFloat.fexp, SpecFloat.emin in Bc.
      assert (Digits.Zdigits radix2 (Z.pos m) <= 24)%Z by lia. split; [|lia].
      pose proof (Digits.Zdigits_correct radix2 (Z.pos m)) as [_ D]. rewrite Z.abs_eq in D by lia.
      eapply Z.lt_le_trans; [exact D|]. apply (Z.pow_le_mono_r 2); lia. }
    destruct (Z_lt_le_dec e 0) as [Ne|Pe].
    + assert (W : bpow radix2 e = / IZR (2 ^ (- e))).
      { rewrite <- (Z.opp_involutive e) at 1. rewrite bpow_opp, <- (IZR_Zpower radix2) by lia. reflexivity. }
      assert (Q : F2R (Float radix2 (Z.pos m) e) = IZR (Z.pos m) / IZR (2 ^ (- e))) by (unfold F2R; cbn [Fnum Fexp]; rewrite W; reflexivity).
      rewrite Q, Zfloor_div by (apply Z.pow_nonzero; lia).
      replace (IZR (Z.pos m) / IZR (2 ^ (- e)) - IZR (Z.pos m / 2 ^ (- e))) with (F2R (Float radix2 (Z.pos m mod 2 ^ (- e)) e)).
      * apply format_F2R; [|lia]. pose proof (Z.mod_pos_bound (Z.pos m) (2 ^ (- e)) ltac:(lia)).
        pose proof (Z.mod_le (Z.pos m) (2 ^ (- e)) ltac:(lia) ltac:(lia)). lia.
      * unfold F2R. cbn [Fnum Fexp]. rewrite W.
        pose proof (Z.div_mod (Z.pos m) (2 ^ (- e)) ltac:(lia)) as D. apply (f_equal IZR) in D. rewrite plus_IZR, mult_IZR in D.
        assert (NZ : IZR (2 ^ (- e)) <> 0) by (apply IZR_neq; lia).
        assert (R1 : IZR (Z.pos m mod 2 ^ (- e)) = IZR (Z.pos m) - IZR (2 ^ (- e)) * IZR (Z.pos m / 2 ^ (- e))) by lra.
        rewrite R1. field. exact NZ.
    + assert (Q : F2R (Float radix2 (Z.pos m) e) = IZR (Z.pos m * 2 ^ e)).
      { unfold F2R. cbn [Fnum Fexp]. rewrite mult_IZR. f_equal. rewrite <- (IZR_Zpower radix2) by lia. reflexivity. }
      rewrite Q, Zfloor_IZR, Rminus_diag_eq by auto. apply generic_format_0.
Qed.
Lemma fract_R x : fin x -> 0 <= val x -> 
  fin (ffract x) /\ val (ffract x) = val x - IZR (Zfloor (val x)) /\ 0 <= val (ffract x) < 1.
Proof.
  intros H N. destruct (trunc_R x H N) as [F V]. pose proof (Zfloor_lb (val x)). pose proof (Zfloor_ub (val x)).
  destruct (fsub_R x (ftrunc x) 1 H F) as [Ff Vf]; [lia| |].
  { rewrite V. change (bpow radix2 1) with 2. apply Rabs_lt. lra. }
  fold (ffract x) in Ff, Vf. rewrite V, round_generic in Vf; [|apply valid_rnd_N|now apply frac_format].
  split; auto. split; auto. rewrite Vf. lra.
Qed.

(** ** Values a little above one round to one *)
Lemma near_one x : Rabs x <= 1 + bpow radix2 (-25) -> Rabs (rnd32 x) <= 1.
Proof.
  intros H. assert (P : bpow radix2 (-25) = / 33554432) by reflexivity. rewrite P in H.
  pose proof (rnd_err x 1 ltac:(lia)) as E. change (bpow radix2 1) with 2 in E. specialize (E ltac:(lra)).
  replace (bpow radix2 (1 - 25)) with (/ 16777216) in E by reflexivity.
  destruct (Rle_lt_dec (Rabs (rnd32 x)) 1) as [L|L]; auto. exfalso.
  assert (G : generic_format radix2 fexp32 (Rabs (rnd32 x))).
  { apply generic_format_abs. apply generic_format_round; [exact _|apply valid_rnd_N]. }
  assert (G1 : generic_format radix2 fexp32 1) by (apply (format_IZR 1); lia).
  pose proof (succ_le_lt radix2 fexp32 1 _ G1 G L) as S. rewrite succ_eq_pos in S by lra.
  change 1 with (bpow radix2 0) in S at 2. rewrite ulp_bpow in S.
  replace (fexp32 (0 + 1)) with (-23)%Z in S by reflexivity. replace (bpow radix2 (-23)) with (/ 8388608) in S by reflexivity.
  pose proof (Rabs_triang_inv (rnd32 x) x). lra.
Qed.
Lemma format_val x : generic_format radix2 fexp32 (val x).
Proof. apply generic_format_B2R. Qed.

(** ** One interpolation *)
Definition blend (a b t : f32) : f32 := fadd (fmul a (fsub f1 t)) (fmul b t).
Lemma blend_R a b t : full_scale a -> full_scale b -> fin t -> 0 <= val t < 1 ->
  full_scale (blend a b t) /\ Rabs (val (blend a b t) - (val a * (1 - val t) + val b * val t)) <= / 4194304.
Proof.
  intros [Fa Ba] [Fb Bb] Ft Bt. destruct val_f1 as [F1 V1]. fold (fin a) in Fa. fold (fin b) in Fb. fold (val a) in Ba. fold (val b) in Bb.
  destruct (fsub_R f1 t 1 F1 Ft) as [Fu Vu]; [lia|rewrite V1; change (bpow radix2 1) with 2; apply Rabs_lt; lra|].
  set (u := fsub f1 t) in *. rewrite V1 in Vu.
  assert (Hu : 0 <= val u <= 1 /\ Rabs (val u - (1 - val t)) <= bpow radix2 (-25)).
  { rewrite Vu. split; [split|].
    - apply round_ge_generic; [exact _|apply valid_rnd_N|apply generic_format_0|lra].
    - apply round_le_generic; [exact _|apply valid_rnd_N|apply (format_IZR 1); lia|lra].
    - destruct (Req_dec (val t) 0) as [Z|NZ].
      + rewrite Z, Rminus_0_r. rewrite (rnd_IZR 1) by lia. rewrite Rminus_diag_eq, Rabs_R0 by auto. apply bpow_ge_0.
      + apply (rnd_err _ 0); [lia|]. change (bpow radix2 0) with 1. apply Rabs_lt. lra. }
  destruct Hu as [Bu Eu]. apply Rabs_le_inv in Eu. replace (bpow radix2 (-25)) with (/ 33554432) in Eu by reflexivity.
  assert (Aa : Rabs (val a) <= 1) by (apply Rabs_le; lra). assert (Ab : Rabs (val b) <= 1) by (apply Rabs_le; lra).
  assert (Pa : Rabs (val a * val u) <= val u).
  { rewrite Rabs_mult, (Rabs_pos_eq (val u)) by lra. nra. }
  assert (Pb : Rabs (val b * val t) <= val t).
  { rewrite Rabs_mult, (Rabs_pos_eq (val t)) by lra. nra. }
  destruct (fmul_R a u 1 Fa Fu) as [Fp Vp]; [lia|change (bpow radix2 1) with 2; lra|].
  destruct (fmul_R b t 1 Fb Ft) as [Fq Vq]; [lia|change (bpow radix2 1) with 2; lra|].
  pose proof (rnd_err (val a * val u) 1 ltac:(lia)) as Ep. pose proof (rnd_err (val b * val t) 1 ltac:(lia)) as Eq.
  change (bpow radix2 1) with 2 in Ep, Eq. specialize (Ep ltac:(lra)). specialize (Eq ltac:(lra)).
  replace (bpow radix2 (1 - 25)) with (/ 16777216) in Ep, Eq by reflexivity. rewrite <- Vp in Ep. rewrite <- Vq in Eq.
  assert (Bp : Rabs (val (fmul a u)) <= val u).
  { rewrite Vp. apply abs_round_le_generic; [exact _|apply valid_rnd_N|apply format_val|exact Pa]. }
  assert (Bq : Rabs (val (fmul b t)) <= val t).
  { rewrite Vq. apply abs_round_le_generic; [exact _|apply valid_rnd_N|apply format_val|exact Pb]. }
  set (x := fmul a u) in *. set (y := fmul b t) in *.
  assert (S : Rabs (val x + val y) <= 1 + / 33554432) by (pose proof (Rabs_triang (val x) (val y)); lra).
  destruct (fadd_R x y 1 Fp Fq) as [Fs Vs]; [lia|change (bpow radix2 1) with 2; lra|].
  pose proof (rnd_err (val x + val y) 1 ltac:(lia)) as Es. change (bpow radix2 1) with 2 in Es. specialize (Es ltac:(lra)).
  replace (bpow radix2 (1 - 25)) with (/ 16777216) in Es by reflexivity. rewrite <- Vs in Es.
  unfold blend. fold u x y. split.
  - split; [exact Fs|]. fold (val (fadd x y)). apply Rabs_le_inv. rewrite Vs. apply near_one. exact S.
  - apply Rabs_le_inv in Ep, Eq, Es. apply Rabs_le.
    assert (Rabs (val a * (val u - (1 - val t))) <= / 33554432).
    { rewrite Rabs_mult. assert (Rabs (val u - (1 - val t)) <= / 33554432) by (apply Rabs_le; lra).
      pose proof (Rabs_pos (val a)). pose proof (Rabs_pos (val u - (1 - val t))). nra. }
    apply Rabs_le_inv in H. lra.
Qed.
(** On a sample. *)
Lemma blend_0 a b t : fin a -> fin b -> Rabs (val a) < bpow radix2 127 -> fin t -> val t = 0 -> fin (blend a b t) /\ val (blend a b t) = val a.
Proof.
  intros Fa Fb La Ft Vt. destruct val_f1 as [F1 V1].
  destruct (fsub_R f1 t 1 F1 Ft) as [Fu Vu]; [lia|rewrite V1, Vt; change (bpow radix2 1) with 2; apply Rabs_lt; lra|].
  rewrite V1, Vt, Rminus_0_r, (rnd_IZR 1) in Vu by lia.
  destruct (fmul_R a _ 127 Fa Fu) as [Fp Vp]; [lia|rewrite Vu, Rmult_1_r; auto|].
  rewrite Vu, Rmult_1_r, round_generic in Vp; [|apply valid_rnd_N|apply format_val].
  destruct (fmul_R b t 127 Fb Ft) as [Fq Vq]; [lia|rewrite Vt, Rmult_0_r, Rabs_R0; apply bpow_gt_0|].
  rewrite Vt, Rmult_0_r, round_0 in Vq by apply valid_rnd_N.
  destruct (fadd_R _ _ 127 Fp Fq) as [Fs Vs]; [lia|rewrite Vp, Vq, Rplus_0_r; auto|].
  rewrite Vp, Vq, Rplus_0_r, round_generic in Vs; [|apply valid_rnd_N|apply format_val]. auto.
Qed.
