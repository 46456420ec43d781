(** * Sample values through dithering, quantisation and restoration *)
From Coq Require Import ZArith Bool Reals Lra Lia Psatz List.
From Flocq Require Import Core IEEE754.BinarySingleNaN.
From Verif Require Import Model.Base Model.F32 Model.Sample Model.Parabola Model.Noise Model.Adhoc
  Spec.Codec Spec.Recording Proofs.BaseFacts Proofs.FloatFacts Proofs.Predict Proofs.RoundTrip Proofs.DecodeFacts.
Import ListNotations.

(** ** Noise *)
Section NoiseFacts.
Open Scope Z_scope.
Lemma rnd_range s : 0 <= rnd s < 507961.
Proof. apply Z.mod_pos_bound. lia. Qed.
Lemma rnd_iter_range n : 0 <= rnd_iter n < 507961.
Proof. destruct n; cbn [rnd_iter]; [lia|apply rnd_range]. Qed.
Lemma land_range r k : 0 <= k -> 0 <= Z.land r (Z.ones k) < 2 ^ k.
Proof. intros. rewrite Z.land_ones by lia. apply Z.mod_pos_bound. apply Z.pow_pos_nonneg; lia. Qed.
End NoiseFacts.

Open Scope R_scope.
(** Exact quotients by a power of two. *)
Lemma exact_div k n : (0 <= k <= 20)%Z -> (Z.abs n <= 2 ^ 20)%Z ->
  fin (fdiv (f32_of_Z n) (f32_of_Z (2 ^ k))) /\ val (fdiv (f32_of_Z n) (f32_of_Z (2 ^ k))) = IZR n * bpow radix2 (- k).
Proof.
  intros Hk Hn.
  assert (P : (1 <= 2 ^ k <= 2 ^ 20)%Z).
  { split; [|apply Z.pow_le_mono_r; lia]. change 1%Z with (2 ^ 0)%Z. apply Z.pow_le_mono_r; lia. }
  destruct (f32_of_Z_R n) as [Fn Vn]; [lia|]. destruct (f32_of_Z_R (2 ^ k)) as [Fk Vk]; [lia|].
  assert (B : IZR (2 ^ k) = bpow radix2 k) by (rewrite (IZR_Zpower radix2) by lia; reflexivity).
  assert (Q : val (f32_of_Z n) / val (f32_of_Z (2 ^ k)) = F2R (Float radix2 n (- k))).
  { rewrite Vn, Vk, B. unfold F2R. cbn [Fnum Fexp]. rewrite bpow_opp. reflexivity. }
  destruct (fdiv_R (f32_of_Z n) (f32_of_Z (2 ^ k)) 21 Fn) as [F V].
  - rewrite Vk. apply not_0_IZR. lia.
  - lia.
  - rewrite Q. unfold F2R. cbn [Fnum Fexp]. rewrite Rabs_mult, <- abs_IZR, (Rabs_pos_eq (bpow radix2 (- k))) by apply bpow_ge_0.
    apply Rle_lt_trans with (IZR (2 ^ 20) * 1).
    + apply Rmult_le_compat; [apply IZR_le; lia|apply bpow_ge_0|apply IZR_le; lia|].
      change 1 with (bpow radix2 0). apply bpow_le. lia.
    + change (bpow radix2 21) with 2097152. change (2 ^ 20)%Z with 1048576%Z. lra.
  - split; [exact F|]. rewrite V, Q, rnd_F2R by lia. reflexivity.
Qed.

Lemma fraction_R r : fin (fraction r) /\ val (fraction r) = IZR (Z.land r 16383) / 16384.
Proof.
  unfold fraction. pose proof (land_range r 14 ltac:(lia)) as L. change (Z.ones 14) with 16383%Z in L.
  change (f32_of_Z 16384) with (f32_of_Z (2 ^ 14)).
  destruct (exact_div 14 (Z.land r 16383)) as [F V]; [lia|lia|]. split; [exact F|]. rewrite V.
  change (bpow radix2 (- (14))) with (/ 16384). reflexivity.
Qed.
(** The noise value is the exact difference. *)
Lemma triangle_R r1 r2 :
  let n := fadd (fmul (fraction r1) (f32_of_Z (-1))) (fmul (fraction r2) (f32_of_Z 1)) in
  fin n /\ val n = (IZR (Z.land r2 16383) - IZR (Z.land r1 16383)) / 16384.
Proof.
  cbv zeta. destruct (fraction_R r1) as [F1 V1], (fraction_R r2) as [F2 V2].
  pose proof (land_range r1 14 ltac:(lia)) as L1. pose proof (land_range r2 14 ltac:(lia)) as L2.
  change (Z.ones 14) with 16383%Z in L1, L2. change (2 ^ 14)%Z with 16384%Z in L1, L2.
  set (k1 := Z.land r1 16383) in *. set (k2 := Z.land r2 16383) in *.
  assert (B1 : 0 <= IZR k1 <= 16383) by (split; apply IZR_le; lia).
  assert (B2 : 0 <= IZR k2 <= 16383) by (split; apply IZR_le; lia).
  destruct val_fm1 as [Fm Vm], val_f1 as [Ff1 Vf1].
  assert (E : forall n, (Z.abs n <= 16384)%Z -> rnd32 (IZR n / 16384) = IZR n / 16384).
  { intros n Hn. replace (IZR n / 16384) with (F2R (Float radix2 n (-14))); [apply rnd_F2R; lia|].
    unfold F2R. cbn [Fnum Fexp]. change (bpow radix2 (-14)) with (/ 16384). reflexivity. }
  change (f32_of_Z (-1)) with fm1. change (f32_of_Z 1) with f1.
  destruct (fmul_R (fraction r1) fm1 1 F1 Fm) as [Fa Va]; [lia| |].
  { rewrite V1, Vm. change (bpow radix2 1) with 2. apply Rabs_lt. lra. }
  rewrite V1, Vm in Va. replace (IZR k1 / 16384 * -1) with (IZR (- k1) / 16384) in Va by (rewrite opp_IZR; lra).
  rewrite E in Va by lia.
  destruct (fmul_R (fraction r2) f1 1 F2 Ff1) as [Fb Vb]; [lia| |].
  { rewrite V2, Vf1. change (bpow radix2 1) with 2. apply Rabs_lt. lra. }
  rewrite V2, Vf1, Rmult_1_r, E in Vb by lia.
  destruct (fadd_R _ _ 1 Fa Fb) as [Fc Vc]; [lia| |].
  { rewrite Va, Vb, opp_IZR. change (bpow radix2 1) with 2. apply Rabs_lt. lra. }
  split; [exact Fc|]. rewrite Vc, Va, Vb.
  replace (IZR (- k1) / 16384 + IZR k2 / 16384) with (IZR (k2 - k1) / 16384) by (rewrite minus_IZR, opp_IZR; lra).
  rewrite E by lia. rewrite minus_IZR. lra.
Qed.
Lemma triangle_bound r1 r2 :
  let n := fadd (fmul (fraction r1) (f32_of_Z (-1))) (fmul (fraction r2) (f32_of_Z 1)) in
  fin n /\ -1 < val n < 1.
Proof.
  cbv zeta. destruct (triangle_R r1 r2) as [F V]. split; [exact F|]. rewrite V.
  pose proof (land_range r1 14 ltac:(lia)) as L1. pose proof (land_range r2 14 ltac:(lia)) as L2.
  change (Z.ones 14) with 16383%Z in L1, L2. change (2 ^ 14)%Z with 16384%Z in L1, L2.
  set (k1 := Z.land r1 16383) in *. set (k2 := Z.land r2 16383) in *.
  assert (B1 : 0 <= IZR k1 <= 16383) by (split; apply IZR_le; lia).
  assert (B2 : 0 <= IZR k2 <= 16383) by (split; apply IZR_le; lia). lra.
Qed.
Lemma noise_bound j : fin (noise j) /\ -1 < val (noise j) < 1.
Proof. apply triangle_bound. Qed.

(** ** Gains *)
Lemma gain_R level : (0 <= level)%Z ->
  fin (gain level) /\ val (gain level) = bpow radix2 (Z.min level 10) /\
  fin (inv_gain level) /\ val (inv_gain level) = bpow radix2 (- Z.min level 10).
Proof.
  intros Hl. unfold inv_gain, gain. set (k := Z.min level 10). assert (Hk : (0 <= k <= 10)%Z) by lia.
  assert (P : (1 <= 2 ^ k <= 2 ^ 10)%Z).
  { split; [|apply Z.pow_le_mono_r; lia]. change 1%Z with (2 ^ 0)%Z. apply Z.pow_le_mono_r; lia. }
  destruct (f32_of_Z_R (2 ^ k)) as [Fk Vk]; [lia|]. split; [exact Fk|].
  split; [rewrite Vk, (IZR_Zpower radix2) by lia; reflexivity|].
  destruct (exact_div k 1) as [F V]; [lia|lia|]. split; [exact F|]. rewrite V. lra.
Qed.

Lemma val_format x : generic_format radix2 fexp32 (val x).
Proof. apply generic_format_B2R. Qed.
Lemma rnd_val x : rnd32 (val x) = val x.
Proof. apply round_generic; [apply valid_rnd_N|apply val_format]. Qed.
Lemma val_lt_128 x : Rabs (val x) < bpow radix2 128.
Proof. apply abs_B2R_lt_emax. Qed.

(** Adding a zero, multiplying by one. *)
Lemma fadd_zero s z : fin s -> fin z -> val z = 0 -> fin (fadd s z) /\ val (fadd s z) = val s.
Proof.
  intros Fs Fz Vz. pose proof (Bplus_correct 24 128 prec_pos prec_lt_emax mode_NE s z Fs Fz) as C.
  fold (val s) (val z) in C. rewrite Vz, Rplus_0_r, rnd_val in C.
  rewrite Rlt_bool_true in C by apply val_lt_128. destruct C as (C1 & C2 & _). split; auto.
Qed.
Lemma fmul_one s : fin s -> fin (fmul s f1) /\ val (fmul s f1) = val s.
Proof.
  intros Fs. pose proof (Bmult_correct 24 128 prec_pos prec_lt_emax mode_NE s f1) as C.
  fold (val s) (val f1) in C. rewrite (proj2 val_f1), Rmult_1_r, rnd_val in C.
  rewrite Rlt_bool_true in C by apply val_lt_128. destruct C as (C1 & C2 & _). split; auto.
  unfold fin, fmul. rewrite C2. rewrite Fs. apply (proj1 val_f1).
Qed.
(** Multiplying by one changes nothing, whatever the value. *)
Lemma fmul_one_eq s : fmul s f1 = s.
Proof.
  destruct s as [b|b| |b m e H].
  - destruct b; reflexivity.
  - destruct b; reflexivity.
  - reflexivity.
  - set (x := B754_finite b m e H). assert (Fx : fin x) by reflexivity.
    destruct (fmul_one x Fx) as [F V]. apply B2R_Bsign_inj; auto.
    pose proof (Bmult_correct 24 128 prec_pos prec_lt_emax mode_NE x f1) as C.
    fold (val x) (val f1) in C. rewrite (proj2 val_f1), Rmult_1_r, rnd_val in C.
    rewrite Rlt_bool_true in C by apply val_lt_128. destruct C as (_ & _ & C3).
    unfold fmul. rewrite C3; [now destruct b|].
    change (is_nan (fmul x f1) = false). destruct (fmul x f1); try reflexivity. discriminate F.
Qed.

(** ** One sample at level 0 *)
Lemma truncate_val x y : fin x -> fin y -> val x = val y -> truncate_sample x = truncate_sample y.
Proof.
  intros Fx Fy E. destruct (fclamp_R x Fx) as [F1 V1], (fclamp_R y Fy) as [F2 V2].
  unfold truncate_sample.
  assert (B : forall z, fin z -> -1 <= val (fclamp z fm1 f1) <= 1).
  { intros z Fz. rewrite (proj2 (fclamp_R z Fz)). split; [apply Rmax_l|]. apply Rmax_lub; [lra|apply Rmin_l]. }
  destruct (scaled_R _ F1 (B x Fx)) as (G1 & C1 & _), (scaled_R _ F2 (B y Fy)) as (G2 & C2 & _).
  rewrite !as_i16_R by (auto; lra). f_equal.
  destruct val_f32767 as [FN VN].
  assert (K : forall z, fin z -> val (fmul (fclamp z fm1 f1) (f32_of_Z 32767)) =
    rnd32 (Rmax (-1) (Rmin 1 (val z)) * 32767)).
  { intros z Fz. destruct (fclamp_R z Fz) as [Fc Vc]. pose proof (B z Fz) as Bz.
    destruct (fmul_R (fclamp z fm1 f1) (f32_of_Z 32767) 16 Fc FN) as [_ Q]; [lia| |].
    - rewrite VN. change (bpow radix2 16) with 65536. apply Rabs_lt. lra.
    - now rewrite Q, VN, Vc. }
  rewrite !K by auto. now rewrite E.
Qed.
Lemma inv_gain_0 : inv_gain 0 = f1.
Proof. apply B2SF_inj. vm_compute. reflexivity. Qed.
Lemma gain_0 : gain 0 = f1. Proof. reflexivity. Qed.

Lemma zero_mul x : fin x -> fin (fmul x (fsub f1 f1)) /\ val (fmul x (fsub f1 f1)) = 0.
Proof.
  intros Fx. assert (E : fsub f1 f1 = B754_zero false) by (apply B2SF_inj; vm_compute; reflexivity).
  rewrite E. destruct x as [b|b| |b m e H]; try discriminate Fx; split; reflexivity.
Qed.
Lemma f_0_001_R : fin f_0_001 /\ val f_0_001 = 8589935 / 8589934592.
Proof.
  assert (V : F2R (Float radix2 8589935 (-33)) = 8589935 / 8589934592) by (unfold F2R; cbn; lra).
  rewrite <- V. apply flit_R; try lia. rewrite V, Rabs_pos_eq by lra.
  eapply Rlt_trans; [|apply (bpow_lt radix2 1 127); lia]. change (bpow radix2 1) with 2. lra.
Qed.
(** At level 0 the noise has no influence on the quantised value, whatever the sample. *)
Lemma quantise_level0 s n : fin n -> Rabs (val n) < 1 ->
  quantise (dithered (inv_gain 0) s n) = quantise s.
Proof.
  intros Fn Bn. apply Rabs_lt_inv in Bn. rewrite inv_gain_0. unfold dithered. change (f32_of_Z 1) with f1. rewrite fmul_one_eq.
  destruct f_0_001_R as [Fc Vc]. change (flit 8589935 (-33)) with f_0_001.
  destruct (fmul_R n f_0_001 1 Fn Fc) as [Fm _]; [lia| |].
  { rewrite Vc. change (bpow radix2 1) with 2. apply Rabs_lt. lra. }
  destruct (zero_mul _ Fm) as [Fz Vz]. set (z := fmul (fmul n f_0_001) (fsub f1 f1)) in *. clearbody z.
  destruct s as [b|b| |b m e H].
  - destruct (fadd_zero (B754_zero b) z) as [F V]; auto. apply truncate_val; auto.
  - destruct z as [b'|b'| |b' m' e' H']; try discriminate Fz; destruct b; reflexivity.
  - destruct z as [b'|b'| |b' m' e' H']; try discriminate Fz; reflexivity.
  - destruct (fadd_zero (B754_finite b m e H) z) as [F V]; auto. apply truncate_val; auto.
Qed.
Lemma noise_small j : fin (noise j) /\ Rabs (val (noise j)) < 1.
Proof. destruct (noise_bound j) as [F B]. split; auto. apply Rabs_lt. lra. Qed.

(** ** Dithering and scaling at any level *)
Lemma dithered_R level s j : (0 <= level)%Z -> fin s -> Rabs (val s) <= 1.0001 ->
  let x := dithered (inv_gain level) s (noise j) in
  let k := Z.min level 10 in
  fin x /\ Rabs (val x * bpow radix2 k - val s) <= 0.001001 + bpow radix2 (k - 28) /\
  Rabs (val x) <= 1.002 * bpow radix2 (- k) + bpow radix2 (-28).
Proof.
  intros Hl Fs Bs x k. apply Rabs_le_inv in Bs.
  destruct (gain_R level Hl) as (_ & _ & Fi & Vi). fold k in Vi. set (inv := inv_gain level) in *.
  assert (Hk : (0 <= k <= 10)%Z) by lia.
  assert (Bi : 0 < val inv <= 1).
  { rewrite Vi. split; [apply bpow_gt_0|]. change 1 with (bpow radix2 0). apply bpow_le. lia. }
  assert (Bk : bpow radix2 k * bpow radix2 (- k) = 1) by (rewrite <- bpow_plus, Z.add_opp_diag_r; reflexivity).
  destruct (noise_bound j) as [Fn Bn]. destruct f_0_001_R as [Fc Vc].
  subst x. unfold dithered. change (flit 8589935 (-33)) with f_0_001. change (f32_of_Z 1) with f1.
  destruct (fmul_E (noise j) f_0_001 (-9) Fn Fc) as [Fm Em]; [lia| |].
  { rewrite Vc. change (bpow radix2 (-9)) with (/ 512). apply Rabs_lt. lra. }
  rewrite Vc in Em. change (bpow radix2 (-9 - 25)) with (/ 17179869184) in Em. apply Rabs_le_inv in Em.
  set (m := fmul (noise j) f_0_001) in *. clearbody m.
  destruct val_f1 as [F1 V1].
  destruct (fsub_E f1 inv 1 F1 Fi) as [Fo Eo]; [lia| |].
  { rewrite V1. change (bpow radix2 1) with 2. apply Rabs_lt. lra. }
  rewrite V1 in Eo. change (bpow radix2 (1 - 25)) with (/ 16777216) in Eo. apply Rabs_le_inv in Eo.
  set (o := fsub f1 inv) in *. clearbody o.
  assert (Bm : Rabs (val m) <= 0.0010001) by (apply Rabs_le; lra).
  assert (Bo : Rabs (val o) <= 1.0000001) by (apply Rabs_le; lra).
  assert (Bmo : Rabs (val m * val o) <= 0.0010002).
  { rewrite Rabs_mult. pose proof (Rabs_pos (val m)). pose proof (Rabs_pos (val o)). nra. }
  destruct (fmul_E m o (-9) Fm Fo) as [Fd Ed]; [lia| |].
  { change (bpow radix2 (-9)) with (/ 512). lra. }
  change (bpow radix2 (-9 - 25)) with (/ 17179869184) in Ed. apply Rabs_le_inv in Ed. apply Rabs_le_inv in Bmo.
  set (d := fmul m o) in *. clearbody d.
  destruct (fadd_E s d 1 Fs Fd) as [Fa Ea]; [lia| |].
  { change (bpow radix2 1) with 2. apply Rabs_lt. lra. }
  change (bpow radix2 (1 - 25)) with (/ 16777216) in Ea. apply Rabs_le_inv in Ea.
  set (a := fadd s d) in *. clearbody a.
  assert (Ba : Rabs (val a) <= 1.0012) by (apply Rabs_le; lra).
  assert (Bai : Rabs (val a * val inv) <= 1.0012 * val inv).
  { rewrite Rabs_mult, (Rabs_pos_eq (val inv)) by lra. apply Rmult_le_compat_r; lra. }
  (* exact unless tiny *)
  destruct (fmul_R a inv 1 Fa Fi) as [Fx Vx]; [lia| |].
  { eapply Rle_lt_trans; [apply Bai|]. change (bpow radix2 1) with 2. nra. }
  assert (Ex : Rabs (val (fmul a inv) - val a * val inv) <= bpow radix2 (-28)).
  { rewrite Vx, Vi. destruct (Rle_lt_dec (bpow radix2 (-100)) (Rabs (val a))) as [Hbig|Hsmall].
    - replace (rnd32 (val a * bpow radix2 (- k))) with (val a * bpow radix2 (- k)).
      + rewrite Rminus_diag_eq by reflexivity. rewrite Rabs_R0. apply bpow_ge_0.
      + symmetry. apply round_generic; [apply valid_rnd_N|].
        pose proof (val_format a) as G.
        assert (Nz : val a <> 0).
        { intros E0. rewrite E0, Rabs_R0 in Hbig. pose proof (bpow_gt_0 radix2 (-100)). lra. }
        apply mag_ge_bpow with (r := radix2) (e := (-99)%Z) in Hbig.
        unfold generic_format, scaled_mantissa, cexp in *.
        rewrite mag_mult_bpow by auto.
        unfold SpecFloat.fexp, SpecFloat.emin in *.
        rewrite Z.max_l in * by lia.
        rewrite G at 1. unfold F2R. cbn [Fnum Fexp].
        replace (mag radix2 (val a) + - k - 24)%Z with (mag radix2 (val a) - 24 + - k)%Z by lia.
        rewrite bpow_plus. rewrite <- Rmult_assoc. f_equal. f_equal. f_equal. f_equal.
        rewrite Rmult_assoc, <- bpow_plus. f_equal. f_equal. lia.
    - eapply Rle_trans; [apply (rnd_err _ (-99)); [lia|]|apply bpow_le; lia].
      rewrite Rabs_mult, (Rabs_pos_eq (bpow radix2 (- k))) by apply bpow_ge_0.
      rewrite <- Vi. eapply Rle_lt_trans with (Rabs (val a) * 1).
      + apply Rmult_le_compat_l; [apply Rabs_pos|lra].
      + rewrite Rmult_1_r. eapply Rlt_trans; [apply Hsmall|]. apply bpow_lt. lia. }
  split; [exact Fx|]. split.
  - replace (val (fmul a inv) * bpow radix2 k - val s)
      with ((val (fmul a inv) - val a * val inv) * bpow radix2 k + (val a - val s)).
    2: { rewrite Rmult_minus_distr_r, Vi, Rmult_assoc, (Rmult_comm (bpow radix2 (- k))), Bk. ring. }
    eapply Rle_trans; [apply Rabs_triang|]. rewrite Rplus_comm. apply Rplus_le_compat.
    + apply Rabs_le. lra.
    + rewrite Rabs_mult, (Rabs_pos_eq (bpow radix2 k)) by apply bpow_ge_0.
      replace (k - 28)%Z with (-28 + k)%Z by lia. rewrite bpow_plus.
      apply Rmult_le_compat_r; [apply bpow_ge_0|exact Ex].
  - replace (val (fmul a inv)) with (val a * val inv + (val (fmul a inv) - val a * val inv)) by ring.
    eapply Rle_trans; [apply Rabs_triang|]. apply Rplus_le_compat; [|exact Ex].
    rewrite <- Vi. eapply Rle_trans; [apply Bai|]. apply Rmult_le_compat_r; lra.
Qed.

(** ** Loss of one sample *)
(** What a sample becomes. *)
Definition heard (level : Z) (s : f32) (j : nat) : f32 :=
  fmul (restore (quantise (dithered (inv_gain level) s (noise j)))) (gain level).
Definition loss_bound (level : Z) : R := IZR (2 ^ Z.min level 10) * 1.01 / 32767 + 0.00101.

Lemma restore_quantise x : fin x -> Rabs (val x) <= 1 ->
  fin (restore (quantise x)) /\ Rabs (val (restore (quantise x)) - val x) <= 1.0052 / 32767.
Proof.
  intros Fx Bx. apply Rabs_le_inv in Bx. pose proof (truncate_R x Fx) as T.
  rewrite Rmin_right, Rmax_right in T by (rewrite ?Rmin_right; lra). apply Rabs_lt_inv in T.
  pose proof (truncate_range x) as TR.
  destruct (normalize_R (truncate_sample x)) as [Fr Er]; [lia|]. apply Rabs_le_inv in Er.
  change (quantise x) with (truncate_sample x). change (restore (truncate_sample x)) with (normalize_sample (truncate_sample x)).
  split; [exact Fr|]. apply Rabs_le. lra.
Qed.

Lemma bpow_small k : (0 <= k <= 10)%Z -> 1 <= bpow radix2 k <= 1024 /\ IZR (2 ^ k) = bpow radix2 k.
Proof.
  intros Hk. split; [|rewrite (IZR_Zpower radix2) by lia; reflexivity].
  split; [change 1 with (bpow radix2 0)|change 1024 with (bpow radix2 10)]; apply bpow_le; lia.
Qed.
Lemma heard_close_over level s j : (1 <= level)%Z -> fin s -> Rabs (val s) <= 1.0001 ->
  fin (heard level s j) /\ Rabs (val (heard level s j) - val s) <= loss_bound level.
Proof.
  intros Hl Fs Bs. unfold heard, loss_bound. destruct (noise_small j) as [Fn Bn].
    assert (Hl0 : (0 <= level)%Z) by lia. destruct (dithered_R level s j Hl0 Fs Bs) as (Fx & Ex & Bx).
    set (x := dithered (inv_gain level) s (noise j)) in *. clearbody x.
    set (k := Z.min level 10) in *. assert (Hk : (1 <= k <= 10)%Z) by lia.
    destruct (bpow_small k) as [Pk Ek]; [lia|]. rewrite Ek.
    assert (Bk : bpow radix2 (- k) <= / 2) by (change (/ 2) with (bpow radix2 (-1)); apply bpow_le; lia).
    change (bpow radix2 (-28)) with (/ 268435456) in Bx.
    destruct (restore_quantise x Fx) as [Fr Er]; [lra|]. set (r := restore (quantise x)) in *. clearbody r.
    destruct (gain_R level Hl0) as (Fg & Vg & _). fold k in Vg.
    replace (k - 28)%Z with (k + -28)%Z in Ex by lia. rewrite bpow_plus in Ex.
    change (bpow radix2 (-28)) with (/ 268435456) in Ex.
    assert (E2 : Rabs (val r * bpow radix2 k - val s) <= bpow radix2 k * (1.0052 / 32767) + (0.001001 + bpow radix2 k * / 268435456)).
    { replace (val r * bpow radix2 k - val s) with (bpow radix2 k * (val r - val x) + (val x * bpow radix2 k - val s)) by ring.
      eapply Rle_trans; [apply Rabs_triang|]. apply Rplus_le_compat; [|exact Ex].
      rewrite Rabs_mult, (Rabs_pos_eq (bpow radix2 k)) by lra. apply Rmult_le_compat_l; lra. }
    apply Rabs_le_inv in E2. apply Rabs_le_inv in Bs.
    destruct (fmul_E r (gain level) 1 Fr Fg) as [Fo Eo]; [lia| |].
    { rewrite Vg. change (bpow radix2 1) with 2. apply Rabs_lt. lra. }
    rewrite Vg in Eo. change (bpow radix2 (1 - 25)) with (/ 16777216) in Eo. apply Rabs_le_inv in Eo.
    split; [exact Fo|]. apply Rabs_le. lra.
Qed.

Lemma heard_close level s j : (0 <= level)%Z -> fin s -> Rabs (val s) <= 1 ->
  fin (heard level s j) /\ Rabs (val (heard level s j) - val s) <= loss_bound level.
Proof.
  intros Hl Fs Bs. destruct (Z.eq_dec level 0) as [->|Hne].
  - unfold heard, loss_bound. destruct (noise_small j) as [Fn Bn].
    rewrite quantise_level0 by auto. rewrite gain_0, fmul_one_eq.
    destruct (restore_quantise s Fs Bs) as [F E]. split; [exact F|]. change (2 ^ Z.min 0 10)%Z with 1%Z. lra.
  - apply heard_close_over; auto; [lia|lra].
Qed.

(** Quiet values quantise to small numbers. *)
Lemma quantise_small x b : fin x -> Rabs (val x) <= b -> b <= 1 ->
  IZR (Z.abs (quantise x)) < b * 32767 + 1 + / 1024.
Proof.
  intros Fx Bx Hb. apply Rabs_le_inv in Bx. pose proof (truncate_R x Fx) as T.
  rewrite Rmin_right, Rmax_right in T by (rewrite ?Rmin_right; lra). apply Rabs_lt_inv in T.
  change (quantise x) with (truncate_sample x). rewrite abs_IZR. apply Rabs_lt. lra.
Qed.

Section Lists.
Open Scope Z_scope.
Lemma nth_firstn_lt {A} i n (l : list A) d : (i < n)%nat -> nth i (firstn n l) d = nth i l d.
Proof. revert i l; induction n; intros i l H; [lia|]. destruct l; [now rewrite firstn_nil|]. destruct i; cbn; auto. apply IHn. lia. Qed.
Lemma nth_skipn_plus {A} i n (l : list A) d : nth i (skipn n l) d = nth (n + i) l d.
Proof. revert l; induction n; intros l; [reflexivity|]. destruct l; [now destruct i|]. cbn. apply IHn. Qed.
Lemma flat_map_ext_in {A B} (f g : A -> list B) l : (forall a, In a l -> f a = g a) -> flat_map f l = flat_map g l.
Proof. intros H. rewrite !flat_map_concat_map. f_equal. now apply map_ext_in. Qed.

Lemma interleave_table {A} (d : A) (F : Z -> Z -> A) n (ls : list Z) (Rest : Z -> list A) :
  interleave d n (map (fun c => map (F c) (range (Z.of_nat n)) ++ Rest c) ls) =
    flat_map (fun k => map (fun c => F c k) ls) (range (Z.of_nat n)).
Proof.
  revert F; induction n as [|n IH]; intros F; [reflexivity|]. cbn [interleave].
  replace (range (Z.of_nat (S n))) with (0 :: map (Z.add 1) (range (Z.of_nat n)))
    by (rewrite <- range_shift by lia; f_equal; lia).
  cbn [flat_map]. f_equal.
  - rewrite map_map. reflexivity.
  - rewrite map_map. cbn [map app tl]. rewrite flat_map_concat_map, map_map, <- flat_map_concat_map.
    rewrite <- (IH (fun c k => F c (1 + k))). f_equal. apply map_ext. intros c. now rewrite map_map.
Qed.
Lemma whole_table ch pcm : 0 < ch ->
  whole ch pcm = flat_map (fun k => map (fun c => nth (Z.to_nat (k * ch + c)) pcm f0) (range ch)) (range (zlen pcm / ch)).
Proof.
  intros Hch. unfold whole.
  assert (G : forall n (l : list f32), ch * Z.of_nat n <= zlen l ->
    firstn (Z.to_nat (ch * Z.of_nat n)) l =
      flat_map (fun k => map (fun c => nth (Z.to_nat (k * ch + c)) l f0) (range ch)) (range (Z.of_nat n))).
  { induction n as [|n IH]; intros l Hl.
    - rewrite Z.mul_0_r. reflexivity.
    - replace (range (Z.of_nat (S n))) with (0 :: map (Z.add 1) (range (Z.of_nat n)))
        by (rewrite <- range_shift by lia; f_equal; lia).
      cbn [flat_map]. replace (Z.to_nat (ch * Z.of_nat (S n))) with (Z.to_nat ch + Z.to_nat (ch * Z.of_nat n))%nat by lia.
      rewrite flat_map_concat_map, map_map, <- flat_map_concat_map.
      transitivity (firstn (Z.to_nat ch) l ++ firstn (Z.to_nat (ch * Z.of_nat n)) (skipn (Z.to_nat ch) l)).
      { generalize (Z.to_nat (ch * Z.of_nat n)) as b, (Z.to_nat ch) as a. clear. intros b a. revert l.
        induction a; intros l; [reflexivity|]. destruct l; [now rewrite skipn_nil, !firstn_nil|].
        cbn [Nat.add firstn skipn app]. now rewrite IHa. }
      f_equal.
      + apply (list_ext f0).
        { rewrite firstn_length, map_length, length_range. unfold zlen in Hl. nia. }
        intros i Hi. rewrite firstn_length in Hi. rewrite nth_firstn_lt by lia.
        rewrite (nth_indep (map _ _) f0 (nth (Z.to_nat (0 * ch + 0)) l f0)) by (rewrite map_length, length_range; lia).
        rewrite (map_nth (fun c => nth (Z.to_nat (0 * ch + c)) l f0) (range ch) 0).
        replace i with (Z.to_nat (Z.of_nat i)) at 2 by lia.
        rewrite nth_range by lia. f_equal. lia.
      + rewrite IH by (rewrite zlen_skipn; lia). apply flat_map_ext_in. intros k Hk.
        apply in_range in Hk. apply map_ext_in. intros c Hc. apply in_range in Hc. rewrite nth_skipn_plus. f_equal. nia. }
  pose proof (Z.div_pos (zlen pcm) ch (zlen_nonneg _) Hch). pose proof (Z.mul_div_le (zlen pcm) ch Hch).
  rewrite <- (Z2Nat.id (zlen pcm / ch)) by lia. apply G. lia.
Qed.

Lemma whole_calls inv ch value pcms base : 0 < ch ->
  let outs := map (fun c => map value (concat (chan_calls inv base ch pcms (Z.to_nat c)))) (range ch) in
  Forall2 (fun o s => exists j, o = value (quantise (dithered inv s (noise j))))
    (interleave f0 (Z.to_nat (total_blocks ch pcms)) outs) (flat_map (whole ch) pcms).
Proof.
  intros Hch. cbv zeta. revert base. induction pcms as [|pcm pcms IH]; intros base; [constructor|].
  cbn [flat_map]. set (n := zlen pcm / ch).
  assert (Hn : 0 <= n) by (apply Z.div_pos; [apply zlen_nonneg|lia]).
  assert (ET : Z.to_nat (total_blocks ch (pcm :: pcms)) = (Z.to_nat n + Z.to_nat (total_blocks ch pcms))%nat).
  { pose proof (total_blocks_nonneg ch pcms Hch). unfold total_blocks in *. cbn [map fold_right]. fold n. lia. }
  rewrite ET, interleave_add. apply Forall2_app.
  - rewrite whole_table by auto. fold n.
    rewrite (map_ext_in _ (fun c => map (fun k => value (quantise (preprocessed inv base ch n pcm c k))) (range n)
      ++ map value (concat (chan_calls inv (base + Z.to_nat (ch * n)) ch pcms (Z.to_nat c))))).
    2: { intros c Hc. apply in_range in Hc. unfold chan_calls at 1. cbn [quant_calls map concat].
         rewrite map_app. f_equal.
         assert (E : nth (Z.to_nat c) (quant_call inv base ch pcm) [] = quant_channel inv base ch pcm c).
         { unfold quant_call. rewrite (nth_indep _ [] (quant_channel inv base ch pcm 0)) by (rewrite map_length, length_range; lia).
           rewrite map_nth, nth_range by lia. reflexivity. }
         rewrite E. unfold quant_channel. fold n. rewrite map_map. reflexivity. }
    replace (range n) with (range (Z.of_nat (Z.to_nat n))) by (f_equal; lia).
    rewrite interleave_table. generalize (range (Z.of_nat (Z.to_nat n))) as ks. intros ks.
    induction ks as [|k ks IHk]; [constructor|]. cbn [flat_map]. apply Forall2_app; auto.
    generalize (range ch) as cs. clear. induction cs; constructor; auto. eexists. reflexivity.
  - replace (map (skipn (Z.to_nat n)) _)
      with (map (fun c => map value (concat (chan_calls inv (base + Z.to_nat (ch * n)) ch pcms (Z.to_nat c)))) (range ch)).
    + apply IH.
    + rewrite map_map. apply map_ext_in. intros c Hc. apply in_range in Hc.
      unfold chan_calls at 2. cbn [quant_calls map concat]. rewrite map_app, skipn_app.
      assert (L : length (map value (nth (Z.to_nat c) (quant_call inv base ch pcm) [])) = Z.to_nat n).
      { unfold quant_call. rewrite (nth_indep _ [] (quant_channel inv base ch pcm 0)) by (rewrite map_length, length_range; lia).
        rewrite map_nth, nth_range by lia. unfold quant_channel. rewrite !map_length, length_range. reflexivity. }
      rewrite skipn_all2, L, Nat.sub_diag by lia. reflexivity.
Qed.
(** What should be heard of a recording, sample by sample. *)
Lemma decoded_heard level ch pcms : 0 < ch ->
  Forall2 (fun o s => exists j, o = heard level s j) (decoded_signal level ch pcms) (flat_map (whole ch) pcms).
Proof.
  intros Hch. unfold decoded_signal, output_of.
  pose proof (whole_calls (inv_gain level) ch (fun q => fmul (restore q) (gain level)) pcms 0 Hch) as H. cbv zeta in H.
  rewrite (map_ext_in _ (fun c => map (fun x => fmul x (gain level)) (map restore (quant_signal (inv_gain level) ch pcms c)))) in H.
  - exact H.
  - intros c Hc. apply in_range in Hc. rewrite map_map, quant_signal_calls by lia. reflexivity.
Qed.
(** At level 0 the noise disappears. *)
Lemma decoded_level0 ch pcms : 0 < ch ->
  decoded_signal 0 ch pcms = map (fun s => restore (quantise s)) (flat_map (whole ch) pcms).
Proof.
  intros Hch. pose proof (decoded_heard 0 ch pcms Hch) as H.
  induction H as [|o s l l' (j & ->) H IH]; [reflexivity|]. cbn [map]. f_equal; auto.
  unfold heard. destruct (noise_small j). rewrite quantise_level0, gain_0, fmul_one_eq by auto. reflexivity.
Qed.
(** Every quantised value comes from a sample of a whole block. *)
Lemma quant_signal_from inv ch pcms c : 0 < ch -> 0 <= c < ch ->
  Forall (fun q => exists s j, In s (concat pcms) /\ q = quantise (dithered inv s (noise j))) (quant_signal inv ch pcms c).
Proof.
  intros Hch Hc. unfold quant_signal. generalize 0%nat. induction pcms as [|pcm pcms IH]; intros base; cbn [quant_calls flat_map]; auto.
  apply Forall_app. split.
  - assert (E : nth (Z.to_nat c) (quant_call inv base ch pcm) [] = quant_channel inv base ch pcm c).
    { unfold quant_call. rewrite (nth_indep _ [] (quant_channel inv base ch pcm 0)) by (rewrite map_length, length_range; lia).
      rewrite map_nth, nth_range by lia. reflexivity. }
    rewrite E. unfold quant_channel. apply Forall_forall. intros q Hq. apply in_map_iff in Hq.
    destruct Hq as (k & <- & Hk). apply in_range in Hk. unfold preprocessed.
    eexists. eexists. split; [|reflexivity]. cbn [concat]. apply in_or_app. left. apply nth_In.
    pose proof (Z.mul_div_le (zlen pcm) ch Hch). unfold zlen in *. nia.
  - eapply Forall_impl; [|apply IH]. cbv beta. intros q (s & j & H1 & H2). exists s, j. split; auto.
    cbn [concat]. apply in_or_app. now right.
Qed.
(** Small quantised values make a channel smooth. *)
Lemma small_smooth qs : Forall (fun q => Z.abs q <= 4095) qs -> smooth qs.
Proof.
  intros H t Ht.
  assert (B : forall i, (i < length qs)%nat -> Z.abs (nth i qs 0) <= 4095).
  { intros i Hi. rewrite Forall_forall in H. apply H. now apply nth_In. }
  pose proof (B t ltac:(lia)). pose proof (B (t - 1)%nat ltac:(lia)). pose proof (B (t - 2)%nat ltac:(lia)).
  pose proof (B (t - 3)%nat ltac:(lia)). unfold extrapolate. lia.
Qed.
End Lists.

Definition in_unit (b : R) (s : f32) : Prop := fin s /\ Rabs (val s) <= b.

Lemma level4_smooth level ch pcms c : (4 <= level)%Z -> (0 < ch)%Z -> (0 <= c < ch)%Z ->
  Forall (Forall (in_unit 1.0001)) pcms -> smooth (quant_signal (inv_gain level) ch pcms c).
Proof.
  intros Hl Hch Hc HF. apply small_smooth. eapply Forall_impl; [|apply quant_signal_from; auto].
  cbv beta. intros q (s & j & Hs & ->). apply in_concat in Hs. destruct Hs as (pcm & H1 & H2).
  rewrite Forall_forall in HF. specialize (HF pcm H1). rewrite Forall_forall in HF. destruct (HF s H2) as [Fs Bs].
  destruct (dithered_R level s j ltac:(lia) Fs Bs) as (Fx & _ & Bx).
  assert (Bk : bpow radix2 (- Z.min level 10) <= / 16) by (change (/ 16) with (bpow radix2 (-4)); apply bpow_le; lia).
  change (bpow radix2 (-28)) with (/ 268435456) in Bx.
  pose proof (quantise_small _ (1.1 / 16) Fx ltac:(lra) ltac:(lra)) as Q.
  apply Z.lt_succ_r, lt_IZR. change (Z.succ 4095) with 4096%Z. lra.
Qed.
Lemma loudness_smooth level ch pcms c : (0 <= level < 4)%Z -> (0 < ch)%Z -> (0 <= c < ch)%Z ->
  Forall (Forall (in_unit (IZR (2 ^ level) / 8 - 0.002))) pcms -> smooth (quant_signal (inv_gain level) ch pcms c).
Proof.
  intros Hl Hch Hc HF. apply small_smooth. eapply Forall_impl; [|apply quant_signal_from; auto].
  cbv beta. intros q (s & j & Hs & ->). apply in_concat in Hs. destruct Hs as (pcm & H1 & H2).
  rewrite Forall_forall in HF. specialize (HF pcm H1). rewrite Forall_forall in HF. destruct (HF s H2) as [Fs Bs].
  assert (P : exists u, u = IZR (2 ^ level) /\ bpow radix2 level = u /\ 1 <= u <= 8 /\ bpow radix2 (level - 28) <= / 33554432).
  { assert (level = 0 \/ level = 1 \/ level = 2 \/ level = 3)%Z as [->|[->|[->| ->]]] by lia;
      [exists 1|exists 2|exists 4|exists 8]; (split; [reflexivity|split; [reflexivity|split; [lra|]]]); cbn; lra. }
  destruct P as (u & Eu & Eb & Bu & Bb). rewrite <- Eu in Bs.
  destruct (dithered_R level s j ltac:(lia) Fs ltac:(lra)) as (Fx & Dx & _).
  replace (Z.min level 10) with level in Dx by lia. rewrite Eb in Dx.
  assert (Bx : Rabs (val (dithered (inv_gain level) s (noise j))) <= 0.12497).
  { apply Rabs_le_inv in Dx. apply Rabs_le_inv in Bs. apply Rabs_le. nra. }
  pose proof (quantise_small _ _ Fx Bx ltac:(lra)) as Q.
  apply Z.lt_succ_r, lt_IZR. change (Z.succ 4095) with 4096%Z. lra.
Qed.
Lemma quiet_smooth ch pcms c : (0 < ch)%Z -> (0 <= c < ch)%Z ->
  Forall (Forall (in_unit (/ 8))) pcms -> smooth (quant_signal (inv_gain 0) ch pcms c).
Proof.
  intros Hch Hc HF. apply small_smooth. eapply Forall_impl; [|apply quant_signal_from; auto].
  cbv beta. intros q (s & j & Hs & ->). apply in_concat in Hs. destruct Hs as (pcm & H1 & H2).
  rewrite Forall_forall in HF. specialize (HF pcm H1). rewrite Forall_forall in HF. destruct (HF s H2) as [Fs Bs].
  destruct (noise_small j). rewrite quantise_level0 by auto.
  change (quantise s) with (truncate_sample s). unfold truncate_sample.
  apply Rabs_le_inv in Bs. destruct (fclamp_R s Fs) as [Fc Vc].
  rewrite Rmin_right, Rmax_right in Vc by (rewrite ?Rmin_right; lra).
  destruct val_f32767 as [FN VN].
  assert (B : Rabs (val s * 32767) <= 32767 / 8).
  { rewrite Rabs_mult, (Rabs_pos_eq 32767) by lra. assert (Rabs (val s) <= / 8) by (apply Rabs_le; lra). lra. }
  destruct (fmul_R (fclamp s fm1 f1) (f32_of_Z 32767) 15 Fc FN) as [F' E]; [lia| |].
  { rewrite Vc, VN. change (bpow radix2 15) with 32768. lra. }
  rewrite Vc, VN in E.
  assert (B' : Rabs (val (fmul (fclamp s fm1 f1) (f32_of_Z 32767))) <= 32767 / 8).
  { rewrite E. apply (rnd_exact_bound _ _ 0); [lia|lra| |exact B].
    assert (E8 : F2R (Float radix2 32767 (-3)) = 32767 / 8) by (unfold F2R; cbn; lra). rewrite <- E8. apply format_F2R; lia. }
  rewrite as_i16_R by (auto; lra).
  pose proof (Ztrunc_abs_le (val (fmul (fclamp s fm1 f1) (f32_of_Z 32767))) 4096 ltac:(lra)).
  assert (Z.abs (Ztrunc (val (fmul (fclamp s fm1 f1) (f32_of_Z 32767)))) <> 4096)%Z; [|lia].
  intros E0. set (y := val (fmul (fclamp s fm1 f1) (f32_of_Z 32767))) in *. clearbody y.
  assert (T : IZR (Z.abs (Ztrunc y)) <= Rabs y).
  { rewrite abs_IZR. destruct (Rle_lt_dec 0 y).
    - rewrite Ztrunc_floor by auto. pose proof (Zfloor_lb y).
      assert (0 <= Zfloor y)%Z by (apply Zfloor_lub; cbn; lra).
      rewrite !Rabs_pos_eq by (auto; apply IZR_le; auto). lra.
    - rewrite Ztrunc_ceil by lra. pose proof (Zceil_ub y).
      assert (Zceil y <= 0)%Z by (apply Zceil_glb; cbn; lra).
      rewrite !Rabs_left1 by (try lra; apply IZR_le; auto). lra. }
  rewrite E0 in T. lra.
Qed.


Section Mono.
Open Scope Z_scope.
(** One channel at level 0. *)
Lemma quant_mono_0 base pcm : quant_call (inv_gain 0) base 1 pcm = [map quantise pcm].
Proof.
  unfold quant_call. change (range 1) with [0]. cbn [map]. f_equal. unfold quant_channel. rewrite Z.div_1_r.
  apply (list_ext 0). { rewrite !map_length, length_range. unfold zlen. lia. }
  intros i Hi. rewrite map_length, length_range in Hi.
  set (F := fun k => quantise (preprocessed (inv_gain 0) base 1 (zlen pcm) pcm 0 k)).
  rewrite (nth_indep _ 0 (F 0)) by (rewrite map_length, length_range; lia). rewrite (map_nth F).
  replace i with (Z.to_nat (Z.of_nat i)) at 1 by lia. rewrite nth_range by lia.
  unfold F, preprocessed. destruct (noise_small (base + Z.to_nat (0 * zlen pcm + Z.of_nat i))).
  rewrite quantise_level0 by auto. replace (Z.to_nat (Z.of_nat i * 1 + 0)) with i by lia.
  rewrite (nth_indep (map quantise pcm) 0 (quantise (f32_of_Z 0))) by (rewrite map_length; unfold zlen in Hi; lia).
  now rewrite map_nth.
Qed.
Lemma quant_signal_mono_0 pcms : quant_signal (inv_gain 0) 1 pcms 0 = map quantise (concat pcms).
Proof.
  unfold quant_signal. generalize 0%nat. induction pcms as [|pcm pcms IH]; intros base; [reflexivity|].
  cbn [quant_calls flat_map concat]. rewrite IH, map_app, quant_mono_0. reflexivity.
Qed.
Lemma interleave_one {A} (d : A) l : interleave d (length l) [l] = l.
Proof. induction l; cbn [length interleave map hd tl app]; [reflexivity|]. now rewrite IHl. Qed.
Lemma total_blocks_mono pcms : total_blocks 1 pcms = zlen (concat pcms).
Proof.
  unfold total_blocks. induction pcms; [reflexivity|]. cbn [map fold_right concat]. rewrite zlen_app, IHpcms, Z.div_1_r. reflexivity.
Qed.
Lemma length_lossy qs : length (lossy qs) = length qs.
Proof.
  unfold lossy. rewrite app_length, firstn_length.
  rewrite FrameFacts.length_reconstruct, FrameFacts.length_residuals, skipn_length. lia.
Qed.
Lemma lossy_mono_0 pcms : lossy_signal 0 1 pcms = map restore_in_range (lossy (map quantise (concat pcms))).
Proof.
  unfold lossy_signal, output_of. change (range 1) with [0]. cbn [map]. rewrite quant_signal_mono_0.
  rewrite gain_0. rewrite (map_ext _ (fun x => x)) by apply fmul_one_eq. rewrite map_id.
  set (l := map restore_in_range _).
  replace (Z.to_nat (total_blocks 1 pcms)) with (length l); [apply interleave_one|].
  subst l. rewrite map_length, length_lossy, map_length, total_blocks_mono. unfold zlen. lia.
Qed.
End Mono.
