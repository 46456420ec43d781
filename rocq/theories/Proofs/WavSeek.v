(** * Facts about WavCodec::seek *)
From Coq Require Import ZArith List Bool Reals Lra Lia.
From Flocq Require Import Core IEEE754.BinarySingleNaN.
From Verif Require Import Model.Base Model.F32 Model.Sample Model.Adhoc Model.Wav Spec.Recording Spec.Seeking Spec.Wave.
From Verif Require Import Proofs.BaseFacts Proofs.FloatFacts Proofs.SeekTarget.
Import ListNotations.
Open Scope Z_scope.

(** ** Integers of any size as f32 *)
Lemma of_Z_round n : Z.abs n <= 2 ^ 64 -> fin (f32_of_Z n) /\ val (f32_of_Z n) = rnd32 (IZR n) /\ (Rabs (rnd32 (IZR n)) <= bpow radix2 64)%R.
Proof.
  intros Hn. assert (B : (Rabs (IZR n) <= bpow radix2 64)%R).
  { rewrite <- abs_IZR. change (bpow radix2 64) with (IZR (2 ^ 64)). apply IZR_le. exact Hn. }
  assert (B2 : (Rabs (rnd32 (IZR n)) <= bpow radix2 64)%R) by (apply rnd_bound; [lia|exact B]).
  pose proof (binary_normalize_correct 24 128 prec_pos prec_lt_emax mode_NE n 0 false) as C.
  assert (F : F2R (Float radix2 n 0) = IZR n) by (unfold F2R; cbn [Fnum Fexp bpow]; lra). cbv zeta in C. rewrite F in C.
  rewrite Rlt_bool_true in C; [|eapply Rle_lt_trans; [exact B2|]; apply bpow_lt; lia].
  destruct C as (V & Fi & _). auto.
Qed.

(** ** The product *)
Definition ms_value (info : stream_info) (ms : Z) : R :=
  rnd32 (rnd32 (rnd32 (IZR (si_rate info)) / 1000) * rnd32 (IZR ms)).
Lemma product_R info ms : 0 <= si_rate info < 2 ^ 32 -> Z.abs ms <= 2 ^ 64 ->
  let x := fmul (fdiv (f32_of_Z (si_rate info)) (f32_of_Z 1000)) (f32_of_Z ms) in fin x /\ val x = ms_value info ms.
Proof.
  intros Hr Hm. destruct (of_Z_round (si_rate info) ltac:(lia)) as (F1 & V1 & B1). destruct (of_Z_round ms Hm) as (F2 & V2 & B2).
  destruct (f32_of_Z_R 1000 ltac:(lia)) as [F3 V3].
  assert (Q : (Rabs (val (f32_of_Z (si_rate info)) / val (f32_of_Z 1000)) < bpow radix2 60)%R).
  { rewrite V1, V3. assert (E : (Rabs (rnd32 (IZR (si_rate info)) / 1000) = Rabs (rnd32 (IZR (si_rate info))) / 1000)%R).
    { unfold Rdiv. rewrite Rabs_mult. f_equal. apply Rabs_pos_eq. lra. }
    rewrite E. change (bpow radix2 64) with 18446744073709551616%R in B1. change (bpow radix2 60) with 1152921504606846976%R. lra. }
  destruct (fdiv_R (f32_of_Z (si_rate info)) (f32_of_Z 1000) 60 F1) as [F4 V4]; [rewrite V3; lra|lia|exact Q|].
  rewrite V1, V3 in V4.
  assert (BQ : (Rabs (val (fdiv (f32_of_Z (si_rate info)) (f32_of_Z 1000))) <= bpow radix2 60)%R).
  { rewrite V4. apply rnd_bound; [lia|]. rewrite V1, V3 in Q. lra. }
  cbv zeta. destruct (fmul_R (fdiv (f32_of_Z (si_rate info)) (f32_of_Z 1000)) (f32_of_Z ms) 126 F4 F2) as [F5 V5]; [lia| |].
  - rewrite Rabs_mult, V2. eapply Rle_lt_trans; [apply Rmult_le_compat; [apply Rabs_pos|apply Rabs_pos|exact BQ|exact B2]|].
    rewrite <- bpow_plus. apply bpow_lt. lia.
  - split; auto. rewrite V5, V4, V2. reflexivity.
Qed.
Lemma to_int_R lo hi x : fin x -> f32_to_int lo hi x = zclamp (Ztrunc (val x)) lo hi.
Proof. intros F. rewrite <- Btrunc_R. destruct x; try discriminate F; reflexivity. Qed.
Lemma offset_R info ms : 0 <= si_rate info < 2 ^ 32 -> Z.abs ms <= 2 ^ 64 ->
  block_offset info ms = zclamp (Ztrunc (ms_value info ms)) (- 2 ^ 63) (2 ^ 63 - 1).
Proof. intros Hr Hm. destruct (product_R info ms Hr Hm) as [F V]. unfold block_offset, f32_as_i64. rewrite to_int_R by exact F. now rewrite V. Qed.
Lemma target_R info ms : 0 <= si_rate info < 2 ^ 32 -> Z.abs ms <= 2 ^ 64 ->
  target_block info ms = zclamp (Ztrunc (ms_value info ms)) 0 (2 ^ 64 - 1).
Proof. intros Hr Hm. destruct (product_R info ms Hr Hm) as [F V]. unfold target_block, f32_as_u64. rewrite to_int_R by exact F. now rewrite V. Qed.
Lemma rnd_nonneg x : (0 <= x)%R -> (0 <= rnd32 x)%R.
Proof. intros H. apply round_ge_generic; [exact (fexp_correct 24 128 prec_pos)|exact _|apply generic_format_0|exact H]. Qed.
Lemma ms_value_nonneg info ms : 0 <= si_rate info -> 0 <= ms -> (0 <= ms_value info ms)%R.
Proof.
  intros Hr Hm. unfold ms_value. apply rnd_nonneg, Rmult_le_pos; apply rnd_nonneg; [|now apply IZR_le].
  apply Rmult_le_pos; [|lra]. apply rnd_nonneg. now apply IZR_le.
Qed.
(** For times that are not negative it is the block AdhocCodec seeks to. *)
Lemma offset_target info ms : 0 <= si_rate info < 2 ^ 32 -> 0 <= ms <= 2 ^ 64 ->
  block_offset info ms = Z.min (target_block info ms) (2 ^ 63 - 1).
Proof.
  intros Hr Hm. rewrite offset_R, target_R by lia. pose proof (ms_value_nonneg info ms ltac:(lia) ltac:(lia)) as H.
  assert (T : 0 <= Ztrunc (ms_value info ms)) by (apply (Ztrunc_le 0) in H; now rewrite Ztrunc_IZR in H).
  rewrite !zclamp_eq by lia. lia.
Qed.
Lemma ms_value_opp info ms : ms_value info (- ms) = (- ms_value info ms)%R.
Proof.
  unfold ms_value. rewrite opp_IZR. unfold round_mode. rewrite round_NE_opp, Ropp_mult_distr_r_reverse, round_NE_opp. reflexivity.
Qed.
Lemma offset_zero info : 0 <= si_rate info < 2 ^ 32 -> block_offset info 0 = 0.
Proof.
  intros Hr. rewrite offset_R by lia. assert (E : ms_value info 0 = 0%R) by (pose proof (ms_value_opp info 0) as O; change (- 0) with 0 in O; lra).
  rewrite E, (Ztrunc_IZR 0). reflexivity.
Qed.
Lemma offset_opp info ms : 0 <= si_rate info < 2 ^ 32 -> Z.abs ms <= 2 ^ 64 -> - 2 ^ 63 < block_offset info ms < 2 ^ 63 - 1 ->
  block_offset info (- ms) = - block_offset info ms.
Proof.
  intros Hr Hm. rewrite !offset_R by lia. rewrite ms_value_opp, Ztrunc_opp, !zclamp_eq by lia. intros H. lia.
Qed.

(** ** Where the cursor goes *)
Lemma clampP_ok x lo hi : lo <= hi -> clampP x lo hi = Ok (zclamp x lo hi).
Proof. intros H. unfold clampP. destruct (Z.leb_spec lo hi); [reflexivity|lia]. Qed.
Section Seek.
Variables (p : profile) (info : stream_info) (pcm : list Z).
Let ch := si_channels info.
Let n := zlen pcm / 2.
Hypothesis n_pos : 0 < n < 2 ^ 63.
Lemma finish_ok x c : (hi <- schk p 64 (swrap 64 (wav_num_samples (mkWav info pcm c)) - 1) ;; y <- clampP x 0 hi ;;
    Ok (mkWav (wav_info (mkWav info pcm c)) (wav_pcm (mkWav info pcm c)) (uwrap 64 y)))
  = Ok (mkWav info pcm (zclamp x 0 (n - 1))).
Proof.
  unfold wav_num_samples. cbn [wav_info wav_pcm]. fold n. rewrite swrap_small by (change (2 ^ (64 - 1)) with (2 ^ 63); lia).
  rewrite schk_ok by (change (2 ^ (64 - 1)) with (2 ^ 63); lia). cbn [bind]. rewrite clampP_ok by lia. cbn [bind].
  pose proof (zclamp_range x 0 (n - 1) ltac:(lia)). rewrite uwrap_small by lia. reflexivity.
Qed.
Lemma seek_start c ms : - 2 ^ 63 <= block_offset info ms * ch < 2 ^ 63 ->
  wav_seek p (mkWav info pcm c) (SStart ms) = Ok (mkWav info pcm (zclamp (block_offset info ms * ch) 0 (n - 1))).
Proof.
  intros H. unfold wav_seek. cbn [wav_info]. fold ch. change (f32_as_i64 _) with (block_offset info ms) at 1.
  rewrite schk_ok by (change (2 ^ (64 - 1)) with (2 ^ 63); lia). cbn [bind]. apply finish_ok.
Qed.
Lemma seek_current c ms : 0 < ch -> 0 <= c < 2 ^ 63 ->
  - 2 ^ 63 <= block_offset info ms * ch < 2 ^ 63 -> - 2 ^ 63 <= ch * (c / ch) + block_offset info ms * ch < 2 ^ 63 ->
  wav_seek p (mkWav info pcm c) (SCurrent ms) = Ok (mkWav info pcm (zclamp (ch * (c / ch) + block_offset info ms * ch) 0 (n - 1))).
Proof.
  intros Hch Hc H1 H2. unfold wav_seek. cbn [wav_info wav_cursor]. fold ch. destruct (Z.eqb_spec ch 0) as [|_]; [lia|]. cbn [bind].
  rewrite swrap_small by (change (2 ^ (64 - 1)) with (2 ^ 63); lia). rewrite Z.quot_div_nonneg by lia.
  pose proof (Z.mul_div_le c ch Hch). pose proof (Z.div_pos c ch ltac:(lia) Hch).
  assert (0 <= c / ch * ch) by nia.
  rewrite schk_ok by (change (2 ^ (64 - 1)) with (2 ^ 63); lia). cbn [bind]. change (f32_as_i64 _) with (block_offset info ms) at 1.
  rewrite schk_ok by (change (2 ^ (64 - 1)) with (2 ^ 63); lia). cbn [bind].
  replace (c / ch * ch) with (ch * (c / ch)) by lia. rewrite schk_ok by (change (2 ^ (64 - 1)) with (2 ^ 63); lia). cbn [bind]. apply finish_ok.
Qed.
End Seek.
Lemma seek_end_start p w ms : wav_seek p w (SEnd ms) = wav_seek p w (SStart ms).
Proof.
  unfold wav_seek. rewrite Z.sub_diag, schk_ok by lia. cbn [bind].
  destruct (schk p 64 (f32_as_i64 (fmul (fdiv (f32_of_Z (si_rate (wav_info w))) f1000) (f32_of_Z ms)) * si_channels (wav_info w))) as [m| |] eqn:E; try reflexivity.
  cbn [bind]. rewrite Z.add_0_l. assert (R : - 2 ^ (64 - 1) <= m < 2 ^ (64 - 1)).
  { unfold schk, in_s in E. destruct (Z.leb_spec (- 2 ^ (64 - 1)) (f32_as_i64 (fmul (fdiv (f32_of_Z (si_rate (wav_info w))) f1000) (f32_of_Z ms)) * si_channels (wav_info w)));
    destruct (Z.ltb_spec (f32_as_i64 (fmul (fdiv (f32_of_Z (si_rate (wav_info w))) f1000) (f32_of_Z ms)) * si_channels (wav_info w)) (2 ^ (64 - 1)));
    cbn [andb] in E; try (injection E as <-; lia); destruct p; try discriminate E; injection E as <-; apply swrap_range; lia. }
  rewrite schk_ok by exact R. reflexivity.
Qed.
(** An empty recording. *)
Lemma seek_empty p w dt : zlen (wav_pcm w) < 2 -> exists r, wav_seek p w dt = Panic r.
Proof.
  intros H. assert (N : wav_num_samples w = 0) by (unfold wav_num_samples; apply Z.div_small; pose proof (zlen_nonneg (wav_pcm w)); lia).
  assert (Q : forall (o : outcome Z) (f : Z -> outcome wav), (exists r, o = Panic r) \/ (exists x, o = Ok x) -> (forall x, exists r, f x = Panic r) -> exists r, bind o f = Panic r).
  { intros o f [[r ->]|[x ->]] Hf; cbn [bind]; eauto. }
  assert (S : forall x, (exists r, schk p 64 x = Panic r) \/ (exists y, schk p 64 x = Ok y)).
  { intros x. unfold schk. destruct (in_s 64 x); [right; eauto|]. destruct p; eauto. }
  assert (F : forall x, exists r, (hi <- schk p 64 (swrap 64 (wav_num_samples w) - 1) ;; y <- clampP x 0 hi ;; Ok (mkWav (wav_info w) (wav_pcm w) (uwrap 64 y))) = Panic r).
  { intros x. rewrite N. change (swrap 64 0 - 1) with (-1). rewrite schk_ok by lia. cbn [bind clampP Z.leb Z.compare]. eauto. }
  unfold wav_seek. destruct dt as [d|d|d].
  - apply Q; [apply S|exact F].
  - destruct (si_channels (wav_info w) =? 0); cbn [bind]; [eauto|]. apply Q; [apply S|]. intros b. apply Q; [apply S|]. intros m. apply Q; [apply S|exact F].
  - apply Q; [apply S|]. intros b. apply Q; [apply S|]. intros m. apply Q; [apply S|exact F].
Qed.
