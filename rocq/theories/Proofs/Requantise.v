(** * Restoring and quantising 16-bit values *)
From Coq Require Import ZArith List Bool Reals Lra Lia Psatz.
From Flocq Require Import Core IEEE754.BinarySingleNaN.
From Verif Require Import Model.Base Model.F32 Model.Sample Spec.Recording Proofs.BaseFacts Proofs.FloatFacts Proofs.Predict.
Open Scope R_scope.

Local Instance vexp : Valid_exp fexp32 := fexp_correct 24 128 prec_pos.

(** Rounding goes to the number closer than half a unit in the last place. *)
Lemma rnd_near x m e : (-149 <= e)%Z -> bpow radix2 (e + 23) <= x < bpow radix2 (e + 24) ->
  Rabs (x - F2R (Float radix2 m e)) < bpow radix2 (e - 1) -> rnd32 x = F2R (Float radix2 m e).
Proof.
  intros He Hb Hx. unfold F2R in *. cbn [Fnum Fexp] in *.
  assert (M : (mag radix2 x = e + 24 :> Z)%Z).
  { apply mag_unique. replace (e + 24 - 1)%Z with (e + 23)%Z by lia. pose proof (bpow_gt_0 radix2 (e + 23)).
    rewrite Rabs_pos_eq by lra. exact Hb. }
  unfold round, F2R. cbn [Fnum Fexp]. unfold scaled_mantissa, cexp. rewrite M.
  rewrite fexp_le by lia. replace (e + 24 - 24)%Z with e by lia. f_equal. f_equal.
  cbn [round_mode]. apply Znearest_imp.
  replace (x * bpow radix2 (- e) - IZR m) with ((x - IZR m * bpow radix2 e) * bpow radix2 (- e)).
  2:{ rewrite Rmult_minus_distr_r, Rmult_assoc, <- bpow_plus, Z.add_opp_diag_r. change (bpow radix2 0) with 1. ring. }
  rewrite Rabs_mult, (Rabs_pos_eq (bpow radix2 (- e))) by apply bpow_ge_0.
  replace (/ 2) with (bpow radix2 (e - 1) * bpow radix2 (- e)).
  2:{ rewrite <- bpow_plus. replace (e - 1 + - e)%Z with (-1)%Z by lia. reflexivity. }
  apply Rmult_lt_compat_r; [apply bpow_gt_0|exact Hx].
Qed.

(** Halfway between two representable numbers after scaling. *)
Definition tie (q : Z) : bool :=
  let k := Z.log2 (Z.abs q) in (9 <=? k)%Z && (Z.abs q mod 2 ^ (k - 8) =? 2 ^ (k - 9))%Z.

(** [q] goes through unchanged. *)
Definition faithful (q : Z) : Prop := rnd32 (rnd32 (IZR q * (8388864 / 274877906944)) * 32767) = IZR q.

(** The two roundings in integers: [e] is the exponent of the unit in the last place of the product. *)
Lemma near_faithful q m1 e : (0 <= e <= 6)%Z -> (2 ^ (e + 8) < q < 2 ^ (e + 9))%Z ->
  (Z.abs (q * 32769 - m1 * 2 ^ e) * 2 < 2 ^ e)%Z -> faithful q.
Proof.
  intros He Hq Hm.
  assert (Pe : (2 ^ (e + 8) = 256 * 2 ^ e)%Z) by (rewrite Z.pow_add_r by lia; lia).
  assert (Pe9 : (2 ^ (e + 9) = 512 * 2 ^ e)%Z) by (rewrite Z.pow_add_r by lia; lia).
  assert (P0 : (1 <= 2 ^ e <= 64)%Z).
  { split; [change 1%Z with (2 ^ 0)%Z|change 64%Z with (2 ^ 6)%Z]; apply Z.pow_le_mono_r; lia. }
  set (u := (2 ^ e)%Z) in *.
  assert (Eu : bpow radix2 e = IZR u). { subst u. rewrite (IZR_Zpower radix2) by lia. reflexivity. }
  assert (Sm : (Z.abs (q * 32769 - m1 * u) * 2 <= u - 2 \/ q * 32769 - m1 * u = 0)%Z).
  { destruct (Z.eq_dec e 0) as [E0|N0]; [right; subst u e; change (2 ^ 0)%Z with 1%Z in *; lia|].
    assert (u = 2 * 2 ^ (e - 1))%Z. { subst u. rewrite <- Z.pow_succ_r by lia. f_equal. lia. } lia. }
  unfold faithful.
  assert (R1 : rnd32 (IZR q * (8388864 / 274877906944)) = F2R (Float radix2 m1 (e - 30))).
  { apply rnd_near; [lia| |].
    - replace (e - 30 + 23)%Z with (e + -7)%Z by lia. replace (e - 30 + 24)%Z with (e + -6)%Z by lia.
      rewrite !bpow_plus, Eu. change (bpow radix2 (-7)) with (/ 128). change (bpow radix2 (-6)) with (/ 64).
      assert (L : IZR (256 * u * 32768) <= IZR (q * 32769)) by (apply IZR_le; lia).
      assert (U : IZR (q * 32769) < IZR (512 * u * 32768)) by (apply IZR_lt; lia).
      rewrite !mult_IZR in L, U. lra.
    - unfold F2R. cbn [Fnum Fexp]. replace (e - 30 - 1)%Z with (e + -31)%Z by lia. replace (e - 30)%Z with (e + -30)%Z by lia.
      rewrite !bpow_plus, Eu. change (bpow radix2 (-31)) with (/ 2147483648). change (bpow radix2 (-30)) with (/ 1073741824).
      assert (X : IZR (Z.abs (q * 32769 - m1 * u) * 2) < IZR u) by (apply IZR_lt; lia).
      rewrite mult_IZR, abs_IZR, minus_IZR, !mult_IZR in X.
      replace (IZR q * (8388864 / 274877906944) - IZR m1 * (IZR u * / 1073741824)) with ((IZR q * 32769 - IZR m1 * IZR u) * / 1073741824) by field.
      rewrite Rabs_mult, (Rabs_pos_eq (/ 1073741824)) by lra. lra. }
  rewrite R1.
  assert (E2 : IZR q = F2R (Float radix2 (q * 2 ^ (15 - e)) (e - 15))).
  { unfold F2R. cbn [Fnum Fexp]. rewrite mult_IZR, (IZR_Zpower radix2), Rmult_assoc, <- bpow_plus by lia.
    replace (15 - e + (e - 15))%Z with 0%Z by lia. change (bpow radix2 0) with 1. ring. }
  assert (VX : F2R (Float radix2 m1 (e - 30)) * 32767 = IZR (m1 * u * 32767) / 1073741824).
  { unfold F2R. cbn [Fnum Fexp]. replace (e - 30)%Z with (e + -30)%Z by lia. rewrite bpow_plus, Eu.
    change (bpow radix2 (-30)) with (/ 1073741824). rewrite !mult_IZR. field. }
  rewrite VX.
  set (D := (q * 32769 - m1 * u)%Z) in *.
  assert (EX : (m1 * u * 32767 = q * 1073741824 - q - D * 32767)%Z) by (subst D; lia).
  assert (Bq : (q < 32768)%Z) by lia.
  rewrite E2. apply rnd_near; [lia| |].
  - replace (e - 15 + 23)%Z with (e + 8)%Z by lia. replace (e - 15 + 24)%Z with (e + 9)%Z by lia.
    rewrite !bpow_plus, Eu. change (bpow radix2 8) with 256. change (bpow radix2 9) with 512.
    assert (L : IZR (u * 256 * 1073741824) <= IZR (m1 * u * 32767)) by (apply IZR_le; rewrite EX; lia).
    assert (U : IZR (m1 * u * 32767) < IZR (u * 512 * 1073741824)) by (apply IZR_lt; rewrite EX; lia).
    rewrite (mult_IZR (u * 256)), (mult_IZR u) in L. rewrite (mult_IZR (u * 512)), (mult_IZR u) in U. lra.
  - rewrite <- E2. replace (e - 15 - 1)%Z with (e + -16)%Z by lia. rewrite bpow_plus, Eu. change (bpow radix2 (-16)) with (/ 65536).
    replace (IZR (m1 * u * 32767) / 1073741824 - IZR q) with (IZR (m1 * u * 32767 - q * 1073741824) / 1073741824).
    2:{ rewrite minus_IZR, mult_IZR. rewrite (mult_IZR q). field. }
    unfold Rdiv. rewrite Rabs_mult, (Rabs_pos_eq (/ 1073741824)), <- abs_IZR by lra.
    apply Rmult_lt_reg_r with 1073741824; [lra|]. rewrite Rmult_assoc, Rinv_l, Rmult_1_r by lra.
    replace (IZR u * / 65536 * 1073741824) with (IZR (u * 16384)) by (rewrite mult_IZR; field).
    apply IZR_lt. rewrite EX. clear - Sm Bq Hq Pe Pe9 P0. clearbody D. rewrite Pe, Pe9 in Hq. lia.
Qed.

(** Small values and powers of two, by computation. *)
Lemma restore_scaled q : (Z.abs q <= 32767)%Z ->
  fin (fmul (restore q) (f32_of_Z 32767)) /\
  val (fmul (restore q) (f32_of_Z 32767)) = rnd32 (rnd32 (IZR q * (8388864 / 274877906944)) * 32767).
Proof.
  intros Hq. destruct (f32_of_Z_R q) as [F V]; [lia|]. destruct normalize_factor as (FN & _).
  pose proof normalize_factor_val as VN. destruct val_f32767 as [F7 V7].
  assert (Hb : -32767 <= IZR q <= 32767) by (split; apply IZR_le; lia).
  pose proof (normalize_unit q ltac:(lia)) as U.
  change (restore q) with (fmul (f32_of_Z q) NORMALIZE_FACTOR). change (normalize_sample q) with (fmul (f32_of_Z q) NORMALIZE_FACTOR) in U.
  destruct (fmul_R (f32_of_Z q) NORMALIZE_FACTOR 1 F FN) as [F1 E1]; [lia| |].
  { rewrite V, VN. change (bpow radix2 1) with 2. apply Rabs_lt. lra. }
  destruct (fmul_R (fmul (f32_of_Z q) NORMALIZE_FACTOR) (f32_of_Z 32767) 15 F1 F7) as [F2 E2]; [lia| |].
  { rewrite V7. change (bpow radix2 15) with 32768. apply Rabs_lt. lra. }
  split; [exact F2|]. rewrite E2, E1, V, VN, V7. reflexivity.
Qed.
Lemma quantise_restore q : (Z.abs q <= 32767)%Z ->
  quantise (restore q) = Ztrunc (rnd32 (rnd32 (IZR q * (8388864 / 274877906944)) * 32767)).
Proof.
  intros Hq. unfold quantise. change (restore q) with (normalize_sample q). change (f32_of_Z (-1)) with fm1. change (f32_of_Z 1) with f1.
  rewrite clamp_normalize by lia. destruct (restore_scaled q Hq) as [F E]. rewrite as_i16_R; [now rewrite <- E|exact F|].
  destruct (normalize_R q) as [FN _]; [lia|]. destruct (scaled_R _ FN (normalize_unit q ltac:(lia))) as (_ & B & _).
  change (restore q) with (normalize_sample q). lra.
Qed.
Lemma faithful_opp q : faithful q -> faithful (- q).
Proof.
  unfold faithful. intros H. cbn [round_mode] in *. rewrite opp_IZR, Ropp_mult_distr_l_reverse, round_NE_opp, Ropp_mult_distr_l_reverse, round_NE_opp.
  now rewrite H.
Qed.
Lemma faithful_exact q : (Z.abs q <= 32767)%Z -> faithful q -> quantise (restore q) = q.
Proof. intros Hq H. rewrite quantise_restore by exact Hq. rewrite H. apply Ztrunc_IZR. Qed.

Lemma quantise_restore_opp q : (Z.abs q <= 32767)%Z -> quantise (restore (- q)) = (- quantise (restore q))%Z.
Proof.
  intros Hq. rewrite !quantise_restore by lia. cbn [round_mode].
  rewrite opp_IZR, Ropp_mult_distr_l_reverse, round_NE_opp, Ropp_mult_distr_l_reverse, round_NE_opp. apply Ztrunc_opp.
Qed.
Lemma small_exact q : (0 <= q <= 256)%Z -> quantise (restore q) = q.
Proof.
  intros Hq. assert (F : forallb (fun q => quantise (restore q) =? q)%Z (range 257) = true) by (vm_compute; reflexivity).
  rewrite forallb_forall in F. apply Z.eqb_eq, F, in_range. lia.
Qed.
Lemma power_exact k : (0 <= k <= 14)%Z -> quantise (restore (2 ^ k)) = (2 ^ k)%Z.
Proof.
  intros Hk. assert (F : forallb (fun k => quantise (restore (2 ^ k)) =? 2 ^ k)%Z (range 15) = true) by (vm_compute; reflexivity).
  rewrite forallb_forall in F. apply Z.eqb_eq, F, in_range. lia.
Qed.
(** Positive values that are not ties are exact. *)
Lemma positive_exact q : (0 <= q <= 32767)%Z -> tie q = false -> quantise (restore q) = q.
Proof.
  intros Hq Ht. destruct (Z.le_gt_cases q 256) as [L|G]; [apply small_exact; lia|].
  unfold tie in Ht. rewrite Z.abs_eq in Ht by lia. pose proof (Z.log2_spec q ltac:(lia)) as S. set (k := Z.log2 q) in *.
  assert (Hk : (8 <= k <= 14)%Z).
  { split; [apply Z.log2_le_pow2; lia|]. apply Z.lt_succ_r, Z.log2_lt_pow2; lia. }
  destruct (Z.eq_dec q (2 ^ k)) as [E|N]; [rewrite E; apply power_exact; lia|].
  apply faithful_exact; [lia|].
  destruct (Z.eq_dec k 8) as [E8|N8].
  { apply (near_faithful q (q * 32769) 0); [lia|rewrite E8 in *; change (Z.succ 8) with 9%Z in S; cbn [Z.add]; change (2 ^ (0 + 8))%Z with (2 ^ 8)%Z; change (2 ^ (0 + 9))%Z with (2 ^ 9)%Z; lia|lia]. }
  replace (9 <=? k)%Z with true in Ht by (symmetry; apply Z.leb_le; lia). cbn [andb] in Ht. apply Z.eqb_neq in Ht.
  apply (near_faithful q (q * 2 ^ 15 / 2 ^ (k - 8) + (q + 2 ^ (k - 9)) / 2 ^ (k - 8)) (k - 8)); [lia| |].
  { replace (k - 8 + 8)%Z with k by lia. replace (k - 8 + 9)%Z with (Z.succ k) by lia. lia. }
  assert (E1 : (2 ^ (k - 8) = 2 * 2 ^ (k - 9))%Z) by (rewrite <- Z.pow_succ_r by lia; f_equal; lia).
  assert (E2 : (2 ^ 15 = 2 ^ (23 - k) * 2 ^ (k - 8))%Z) by (rewrite <- Z.pow_add_r by lia; f_equal; lia).
  assert (P : (0 < 2 ^ (k - 9))%Z) by (apply Z.pow_pos_nonneg; lia).
  rewrite E2, Z.mul_assoc, Z.div_mul by lia.
  replace (q * 32769)%Z with (q * (2 ^ (23 - k) * 2 ^ (k - 8)) + q)%Z by (rewrite <- E2; lia).
  rewrite E1 in *. set (h := (2 ^ (k - 9))%Z) in *. clearbody h.
  pose proof (Z.div_mod (q + h) (2 * h) ltac:(lia)) as D. pose proof (Z.mod_pos_bound (q + h) (2 * h) ltac:(lia)) as B.
  pose proof (Z.div_mod q (2 * h) ltac:(lia)) as D'. pose proof (Z.mod_pos_bound q (2 * h) ltac:(lia)) as B'.
  set (a := ((q + h) / (2 * h))%Z) in *. set (b := (q / (2 * h))%Z) in *. set (r := ((q + h) mod (2 * h))%Z) in *. set (r' := (q mod (2 * h))%Z) in *.
  clearbody a b r r'. rewrite Z.mul_add_distr_r.
  assert (r <> 0)%Z. { intros ->. apply Ht. assert (b = a - 1)%Z by nia. subst b. nia. }
  nia.
Qed.
Lemma exact_unless_tie q : (Z.abs q <= 32767)%Z -> tie q = false -> quantise (restore q) = q.
Proof.
  intros Hq Ht. destruct (Z.le_gt_cases 0 q) as [L|G]; [apply positive_exact; auto; lia|].
  assert (E : quantise (restore (- q)) = (- q)%Z). { apply positive_exact; [lia|]. unfold tie in *. now rewrite Z.abs_opp. }
  rewrite quantise_restore_opp in E by exact Hq. lia.
Qed.
(** At most one step off, whatever the value. *)
Lemma one_step q : (-32768 <= q <= 32767)%Z -> (Z.abs (quantise (restore q) - q) <= 1)%Z.
Proof.
  intros Hq. destruct (Z.eq_dec q (-32768)) as [->|N]; [vm_compute; discriminate|].
  destruct (normalize_R q) as [F E]; [lia|]. pose proof (normalize_unit q ltac:(lia)) as U.
  pose proof (truncate_R (normalize_sample q) F) as T. rewrite Rmin_right, Rmax_right in T by (rewrite ?Rmin_right; lra).
  change (quantise (restore q)) with (truncate_sample (normalize_sample q)).
  apply Z.lt_succ_r. change (Z.succ 1) with 2%Z. apply lt_IZR. rewrite abs_IZR, minus_IZR.
  apply Rabs_lt_inv in T. apply Rabs_le_inv in E. apply Rabs_lt. lra.
Qed.
Lemma tie_neighbour q d : tie q = true -> (Z.abs q <= 32767)%Z -> (Z.abs d = 1)%Z -> tie (q + d) = false.
Proof.
  intros Ht Hq Hd. unfold tie in *. set (a := Z.abs q) in *. set (b := Z.abs (q + d)).
  apply andb_true_iff in Ht. destruct Ht as [H9 HT]. apply Z.leb_le in H9. apply Z.eqb_eq in HT.
  assert (Ha : (512 <= a)%Z). { apply Z.le_trans with (2 ^ Z.log2 a)%Z; [change 512%Z with (2 ^ 9)%Z; apply Z.pow_le_mono_r; lia|]. apply Z.log2_spec. destruct (Z.le_gt_cases a 0); [rewrite Z.log2_nonpos in H9 by auto; lia|auto]. }
  assert (Hb : (b = a + 1 \/ b = a - 1)%Z) by lia.
  pose proof (Z.log2_spec a ltac:(lia)) as S. set (k := Z.log2 a) in *.
  assert (Hk : (9 <= k <= 14)%Z). { split; [lia|]. apply Z.lt_succ_r, Z.log2_lt_pow2; lia. }
  assert (E1 : (2 ^ (k - 8) = 2 * 2 ^ (k - 9))%Z) by (rewrite <- Z.pow_succ_r by lia; f_equal; lia).
  assert (E0 : (2 ^ k = 256 * 2 ^ (k - 8))%Z) by (change 256%Z with (2 ^ 8)%Z; rewrite <- Z.pow_add_r by lia; f_equal; lia).
  assert (P : (0 < 2 ^ (k - 9))%Z) by (apply Z.pow_pos_nonneg; lia).
  assert (ES : (2 ^ Z.succ k = 512 * 2 ^ (k - 8))%Z) by (rewrite Z.pow_succ_r by lia; lia).
  apply not_true_iff_false. intros H. apply andb_true_iff in H. destruct H as [H9' HT']. apply Z.leb_le in H9'. apply Z.eqb_eq in HT'.
  pose proof (Z.div_mod a (2 ^ (k - 8)) ltac:(lia)) as D. rewrite HT in D.
  assert (Hx : (256 <= a / 2 ^ (k - 8))%Z) by (apply Z.div_le_lower_bound; lia).
  assert (Hlow : (2 ^ k + 2 ^ (k - 9) <= a)%Z).
  { clear - Hx D E0 E1 P. set (x := (a / 2 ^ (k - 8))%Z) in *. clearbody x. set (w := (2 ^ (k - 9))%Z) in *. clearbody w. rewrite E0, E1 in *. clear E0 E1. nia. }
  destruct (Z.eq_dec b (2 ^ Z.succ k)) as [Eb|Nb].
  - rewrite Eb, Z.log2_pow2 in HT' by lia.
    assert (M : (2 ^ Z.succ k mod 2 ^ (Z.succ k - 8) = 0)%Z).
    { replace (Z.succ k) with (8 + (Z.succ k - 8))%Z at 1 by lia. rewrite Z.pow_add_r by lia. apply Z.mod_mul. apply Z.pow_nonzero; lia. }
    rewrite M in HT'. pose proof (Z.pow_pos_nonneg 2 (Z.succ k - 9)). lia.
  - assert (Lb : Z.log2 b = k). { apply Z.log2_unique; [lia|]. clear - S Hb Nb Hlow P. clearbody k b a. lia. } rewrite Lb in HT'.
    pose proof (Z.div_mod b (2 ^ (k - 8)) ltac:(lia)) as D'. rewrite HT' in D'. clear - D D' Hb E1 P.
    set (x := (a / 2 ^ (k - 8))%Z) in *. set (y := (b / 2 ^ (k - 8))%Z) in *. clearbody x y. rewrite E1 in *. set (w := (2 ^ (k - 9))%Z) in *. clearbody w a b.
    assert (X : (2 * (w * (y - x)) = b - a)%Z) by lia. set (z := (w * (y - x))%Z) in *. clearbody z. lia.
Qed.
(** Doing it again changes nothing. *)
Theorem requantise_idempotent q : (-32768 <= q <= 32767)%Z -> quantise (restore (quantise (restore q))) = quantise (restore q).
Proof.
  intros Hq. destruct (Z.eq_dec q (-32768)) as [->|N]; [vm_compute; reflexivity|].
  destruct (tie q) eqn:T; [|now rewrite !(exact_unless_tie q) by (auto; lia)].
  pose proof (one_step q Hq) as S. pose proof (truncate_range (restore q)) as R. change (truncate_sample (restore q)) with (quantise (restore q)) in R.
  destruct (Z.eq_dec (quantise (restore q)) q) as [E|NE]; [now rewrite !E|].
  apply exact_unless_tie; [lia|]. replace (quantise (restore q)) with (q + (quantise (restore q) - q))%Z by lia.
  apply tie_neighbour; auto; lia.
Qed.
