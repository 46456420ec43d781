(** * The block a time in milliseconds stands for *)
From Coq Require Import ZArith Bool Reals Lra Lia Psatz.
From Flocq Require Import Core Relative IEEE754.BinarySingleNaN.
From Verif Require Import Model.Base Model.F32 Model.Sample Proofs.BaseFacts Proofs.FloatFacts Spec.Seeking.
Open Scope R_scope.

Lemma as_u64_nonneg x : (0 <= f32_as_u64 x < 2 ^ 64)%Z.
Proof.
  unfold f32_as_u64, f32_to_int.
  assert (C : forall z, (0 <= zclamp z 0 (2 ^ 64 - 1) < 2 ^ 64)%Z) by (intros z; pose proof (zclamp_range z 0 (2 ^ 64 - 1) ltac:(lia)); lia).
  destruct x as [s|s| |s m e B]; try apply C; [destruct s|]; lia.
Qed.
Lemma target_nonneg info ms : (0 <= target_block info ms < 2 ^ 64)%Z.
Proof. apply as_u64_nonneg. Qed.

Lemma as_u64_R x : fin x -> 0 <= val x < 2 ^ 63 -> f32_as_u64 x = Zfloor (val x).
Proof.
  intros Hx Hb. unfold f32_as_u64, f32_to_int.
  assert (T : (0 <= Zfloor (val x) <= 2 ^ 64 - 1)%Z).
  { split; [apply Zfloor_lub; tauto|]. apply Z.lt_le_incl, lt_IZR. eapply Rle_lt_trans; [apply Zfloor_lb|].
    eapply Rlt_trans; [apply Hb|]. replace (2 ^ 63) with (IZR (2 ^ 63)) by (rewrite (pow_IZR 2 63); reflexivity). apply IZR_lt. lia. }
  destruct x as [s|s| |s m e B]; try discriminate Hx; rewrite Btrunc_R, Ztrunc_floor by tauto; now apply zclamp_id.
Qed.

Lemma rnd_rel x : bpow radix2 (-126) <= Rabs x -> Rabs (rnd32 x - x) <= bpow radix2 (-24) * Rabs x.
Proof.
  intros H. pose proof (relative_error_N_FLT radix2 (-149) 24 ltac:(lia) (fun z => negb (Z.even z)) x ltac:(exact H)) as E.
  replace (/ 2 * bpow radix2 (- (24) + 1)) with (bpow radix2 (-24)) in E; [exact E|].
  change (bpow radix2 (- (24) + 1)) with (/ IZR (2 ^ 23)). change (bpow radix2 (-24)) with (/ IZR (2 ^ 24)). 
  change (2 ^ 24)%Z with (2 * 2 ^ 23)%Z. rewrite mult_IZR. field. apply IZR_neq. lia.
Qed.

Lemma Rabs_nn x : 0 <= x -> Rabs x = x.
Proof. apply Rabs_pos_eq. Qed.

(** Exact when the rate is a whole number of samples per millisecond. *)
Lemma target_exact k channels ms :
  (0 <= k)%Z -> (k * 1000 <= 2 ^ 24)%Z -> (0 <= ms <= 2 ^ 24)%Z -> (k * ms <= 2 ^ 24)%Z ->
  target_block (mkInfo (1000 * k) channels) ms = (k * ms)%Z.
Proof.
  intros Hk Hr Hm Hp. unfold target_block. cbn [si_rate].
  destruct (f32_of_Z_R (1000 * k) ltac:(lia)) as [F1 V1]. destruct (f32_of_Z_R 1000 ltac:(lia)) as [F2 V2].
  destruct (f32_of_Z_R ms ltac:(lia)) as [F3 V3].
  assert (EQ : val (f32_of_Z (1000 * k)) / val (f32_of_Z 1000) = IZR k).
  { rewrite V1, V2, mult_IZR. field. }
  assert (HkR : 0 <= IZR k <= IZR (2 ^ 24)) by (split; apply IZR_le; lia).
  destruct (fdiv_R (f32_of_Z (1000 * k)) (f32_of_Z 1000) 30) as [F4 V4]; auto; try lia.
  { rewrite V2. lra. }
  { rewrite EQ, Rabs_nn by tauto. eapply Rle_lt_trans; [apply HkR|]. change (bpow radix2 30) with (IZR (2 ^ 30)). apply IZR_lt. lia. }
  rewrite EQ, round_generic in V4 by (try exact _; apply format_IZR; lia).
  assert (EP : val (fdiv (f32_of_Z (1000 * k)) (f32_of_Z 1000)) * val (f32_of_Z ms) = IZR (k * ms)).
  { rewrite V4, V3, mult_IZR. reflexivity. }
  assert (HpR : 0 <= IZR (k * ms) <= IZR (2 ^ 24)) by (split; apply IZR_le; nia).
  destruct (fmul_R (fdiv (f32_of_Z (1000 * k)) (f32_of_Z 1000)) (f32_of_Z ms) 30) as [F5 V5]; auto; try lia.
  { rewrite EP, Rabs_nn by tauto. eapply Rle_lt_trans; [apply HpR|]. change (bpow radix2 30) with (IZR (2 ^ 30)). apply IZR_lt. lia. }
  rewrite EP, round_generic in V5 by (try exact _; apply format_IZR; nia).
  rewrite as_u64_R; auto.
  - rewrite V5. apply Zfloor_IZR.
  - rewrite V5. split; [tauto|]. eapply Rle_lt_trans; [apply HpR|].
    replace (2 ^ 63) with (IZR (2 ^ 63)) by (rewrite (pow_IZR 2 63); reflexivity). apply IZR_lt. lia.
Qed.

(** In general at most one block off, up to [2^22] blocks. *)
Lemma target_close rate channels ms :
  (0 <= rate <= 2 ^ 24)%Z -> (0 <= ms <= 2 ^ 24)%Z -> (rate * ms <= 1000 * 2 ^ 22)%Z ->
  (rate * ms / 1000 - 1 <= target_block (mkInfo rate channels) ms <= rate * ms / 1000 + 1)%Z.
Proof.
  intros Hr Hm Hp. unfold target_block. cbn [si_rate].
  destruct (f32_of_Z_R rate ltac:(lia)) as [F1 V1]. destruct (f32_of_Z_R 1000 ltac:(lia)) as [F2 V2].
  destruct (f32_of_Z_R ms ltac:(lia)) as [F3 V3].
  set (q := fdiv (f32_of_Z rate) (f32_of_Z 1000)) in *.
  assert (HrR : 0 <= IZR rate <= IZR (2 ^ 24)) by (split; apply IZR_le; lia).
  assert (HmR : 0 <= IZR ms <= IZR (2 ^ 24)) by (split; apply IZR_le; lia).
  assert (HpR : 0 <= IZR rate * IZR ms <= 1000 * IZR (2 ^ 22)).
  { rewrite <- !mult_IZR. split; apply IZR_le; nia. }
  change (IZR (2 ^ 24)) with 16777216 in *. change (IZR (2 ^ 22)) with 4194304 in *.
  destruct (fdiv_R (f32_of_Z rate) (f32_of_Z 1000) 30) as [F4 V4]; auto; try lia.
  { rewrite V2. lra. }
  { rewrite V1, V2, Rabs_nn by lra. change (bpow radix2 30) with (IZR (2 ^ 30)). change (IZR (2 ^ 30)) with 1073741824. lra. }
  fold q in F4, V4. rewrite V1, V2 in V4.
  assert (E1 : Rabs (val q - IZR rate / 1000) <= / 16777216 * (IZR rate / 1000)).
  { rewrite V4. destruct (Z.eq_dec rate 0) as [->|Hne].
    - replace (0 / 1000) with 0 by field. rewrite round_0 by apply valid_rnd_N. replace (0 - 0) with 0 by ring. rewrite Rabs_R0. lra.
    - assert (1 <= IZR rate) by (apply IZR_le; lia).
      eapply Rle_trans; [apply rnd_rel|]; rewrite Rabs_nn by lra.
      + apply Rle_trans with (bpow radix2 (-10)); [apply bpow_le; lia|]. change (bpow radix2 (-10)) with (/ 1024). lra.
      + change (bpow radix2 (-24)) with (/ 16777216). lra. }
  apply Rabs_le_inv in E1.
  assert (Hq : 0 <= val q) by lra.
  assert (E2 : Rabs (val q * IZR ms - IZR rate * IZR ms / 1000) <= 1 / 4).
  { replace (val q * IZR ms - IZR rate * IZR ms / 1000) with ((val q - IZR rate / 1000) * IZR ms) by field.
    apply Rabs_le. split; nra. }
  apply Rabs_le_inv in E2.
  assert (Hy : 0 <= val q * IZR ms <= 4194305) by (split; [nra|lra]).
  destruct (fmul_E q (f32_of_Z ms) 23) as [F5 E5]; auto; try lia.
  { rewrite V3, Rabs_nn by tauto. change (bpow radix2 23) with 8388608. lra. }
  rewrite V3 in E5. change (bpow radix2 (23 - 25)) with (/ 4) in E5. apply Rabs_le_inv in E5.
  assert (H0 : 0 <= val (fmul q (f32_of_Z ms))).
  { destruct (fmul_R q (f32_of_Z ms) 23) as [_ V5]; auto; try lia.
    { rewrite V3, Rabs_nn by tauto. change (bpow radix2 23) with 8388608. lra. }
    rewrite V5, V3. apply round_ge_generic; [exact vexp|exact _|apply generic_format_0|tauto]. }
  set (v := val (fmul q (f32_of_Z ms))) in *.
  assert (HV : IZR rate * IZR ms / 1000 - 1 / 2 <= v <= IZR rate * IZR ms / 1000 + 1 / 2) by lra.
  rewrite as_u64_R; auto.
  2: { fold v. split; [exact H0|]. replace (2 ^ 63) with (IZR (2 ^ 63)) by (rewrite (pow_IZR 2 63); reflexivity).
       change (IZR (2 ^ 63)) with 9223372036854775808. lra. }
  fold v. pose proof (Z.div_mod (rate * ms) 1000 ltac:(lia)) as DM. pose proof (Z.mod_pos_bound (rate * ms) 1000 ltac:(lia)) as MB.
  set (d := (rate * ms / 1000)%Z) in *. set (r := ((rate * ms) mod 1000)%Z) in *.
  apply (f_equal IZR) in DM. rewrite plus_IZR, !mult_IZR in DM.
  assert (RB : 0 <= IZR r < 1000) by (split; [apply IZR_le|apply IZR_lt]; lia).
  pose proof (Zfloor_lb v). pose proof (Zfloor_ub v). split.
  - apply Z.lt_succ_r. apply lt_IZR. rewrite <- Z.add_1_r, plus_IZR, minus_IZR. lra.
  - apply Z.lt_succ_r. apply lt_IZR. rewrite <- Z.add_1_r, !plus_IZR. lra.
Qed.

Lemma target_0 info : target_block info 0 = 0%Z.
Proof.
  unfold target_block. generalize (fdiv (f32_of_Z (si_rate info)) (f32_of_Z 1000)). intros x.
  assert (Z0 : f32_of_Z 0 = B754_zero false) by reflexivity. rewrite Z0.
  destruct x as [s|s| |s m e B]; try reflexivity; destruct s; reflexivity.
Qed.
