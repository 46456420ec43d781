(** * Property C56: copying 16-bit audio through f32 *)
From Coq Require Import ZArith List Bool Lia.
From Verif Require Import Model.Base Model.F32 Model.Sample Model.Adhoc Model.Wav Spec.Recording Spec.Wave
  Proofs.BaseFacts Proofs.EncodeFacts Proofs.WavFacts Proofs.Chunks Proofs.Requantise Properties.WavProps.
Import ListNotations.
Open Scope Z_scope.

(** A value of 10 or more bits whose bits below the top nine are 10...0: it lies halfway
    between two multiples of [2 ^ (k - 8)], where [k] is the place of its highest bit. *)
Definition halfway (q : Z) : Prop :=
  exists k, 9 <= k /\ 2 ^ k <= Z.abs q < 2 ^ (k + 1) /\ Z.abs q mod 2 ^ (k - 8) = 2 ^ (k - 9).
(** A copy [b] of sample [a]: at most one step off, and exact unless [a] is halfway or -32768. *)
Definition good_copy (a b : Z) : Prop := Z.abs (b - a) <= 1 /\ (~ halfway a -> a <> -32768 -> b = a).

Lemma tie_halfway q : tie q = true -> halfway q.
Proof.
  unfold tie. intros H. apply andb_true_iff in H. destruct H as [H9 HT]. apply Z.leb_le in H9. apply Z.eqb_eq in HT.
  assert (0 < Z.abs q). { destruct (Z.le_gt_cases (Z.abs q) 0); [rewrite Z.log2_nonpos in H9 by auto; lia|auto]. }
  exists (Z.log2 (Z.abs q)). split; [auto|]. split; [|auto]. now apply Z.log2_spec.
Qed.
Lemma copy_good q : is_i16 q -> good_copy q (quantise (restore q)).
Proof.
  intros Hq. unfold is_i16 in Hq. split; [now apply one_step|]. intros N1 N2. apply exact_unless_tie; [lia|].
  apply not_true_iff_false. intros T. now apply N1, tie_halfway.
Qed.

Definition whole_blocks (ch : Z) (t : list Z) : list Z := firstn (Z.to_nat (ch * (zlen t / ch))) t.

(** Playing a track from its start into buffers with room for all of it, and recording what
    each call reports into a new [WavCodec]: the copy has every whole block, each sample a good copy. *)
Theorem C56_copy : forall p info t odd bufs, let ch := si_channels info in
  1 <= ch -> Forall is_i16 t -> (length odd <= 1)%nat -> zlen t < 2 ^ 62 -> zlen t <= capacity ch bufs ->
  exists w out w' rs t',
    wav_decode_all (mkWav info (pcm_bytes t ++ odd) 0) bufs = Ok (w, out) /\
    wav_encode_all p (wav_new info) (map reported out) = Ok (w', rs) /\
    wav_pcm w' = pcm_bytes t' /\ Forall2 good_copy (whole_blocks ch t) t' /\
    (* copying the copy changes nothing *)
    (forall bufs', zlen t' <= capacity ch bufs' ->
      exists w2 out2 w2' rs2, wav_decode_all (mkWav info (pcm_bytes t') 0) bufs' = Ok (w2, out2) /\
        wav_encode_all p (wav_new info) (map reported out2) = Ok (w2', rs2) /\ wav_pcm w2' = pcm_bytes t').
Proof.
  intros p info t odd bufs ch Hc Ht Ho Hl Hcap.
  assert (G : forall t odd bufs, Forall is_i16 t -> (length odd <= 1)%nat -> zlen t < 2 ^ 62 -> zlen t <= capacity ch bufs ->
    exists w out w' rs, wav_decode_all (mkWav info (pcm_bytes t ++ odd) 0) bufs = Ok (w, out) /\
      wav_encode_all p (wav_new info) (map reported out) = Ok (w', rs) /\
      wav_pcm w' = pcm_bytes (map (fun q => quantise (restore q)) (whole_blocks ch t))).
  { clear t odd bufs Ht Ho Hl Hcap. intros t odd bufs Ht Ho Hl Hcap.
    destruct (decode_all_from info odd t ltac:(lia) Ht Ho bufs 0) as (w & E & _ & _).
    { pose proof (zlen_nonneg t). lia. }
    cbn [Z.to_nat skipn] in E. fold ch in E.
    assert (F : flat_map reported (fill_all ch (map restore t) bufs) = map restore t).
    { apply fill_everything; [lia|]. now rewrite zlen_map. }
    pose proof (encode_all_from p info ltac:(lia) (map reported (fill_all ch (map restore t) bufs)) []) as E2.
    rewrite <- flat_map_concat_map, F, zlen_map in E2. change (zlen (@nil Z)) with 0 in E2.
    specialize (E2 ltac:(lia)). cbv zeta in E2. fold ch in E2. rewrite whole_of_fill in E2 by (auto; lia).
    rewrite whole_map, map_map in E2. cbn [app] in E2.
    do 2 eexists. exists (mkWav info (pcm_bytes (map (fun q => quantise (restore q)) (whole_blocks ch t)))
      (zlen (map (fun q => quantise (restore q)) (whole_blocks ch t)))). eexists.
    split; [exact E|]. split; [exact E2|reflexivity]. }
  assert (Hw : Forall is_i16 (whole_blocks ch t)).
  { apply Forall_forall. intros q Hq. rewrite Forall_forall in Ht. apply Ht.
    rewrite <- (firstn_skipn (Z.to_nat (ch * (zlen t / ch))) t). apply in_or_app. now left. }
  set (t' := map (fun q => quantise (restore q)) (whole_blocks ch t)).
  destruct (G t odd bufs Ht Ho Hl Hcap) as (w & out & w' & rs & E1 & E2 & E3). exists w, out, w', rs, t'.
  split; [exact E1|]. split; [exact E2|]. split; [exact E3|]. split.
  - subst t'. clear - Hw. induction Hw; constructor; auto. now apply copy_good.
  - intros bufs' Hcap'.
    assert (Lw : zlen t' = ch * (zlen t / ch)).
    { subst t'. rewrite zlen_map. unfold whole_blocks. rewrite zlen_firstn. pose proof (zlen_nonneg t).
      pose proof (Z.mul_div_le (zlen t) ch ltac:(lia)). pose proof (Z.div_pos (zlen t) ch ltac:(lia) ltac:(lia)).
      assert (0 <= ch * (zlen t / ch)) by nia. lia. }
    destruct (G t' [] bufs') as (w2 & out2 & w2' & rs2 & F1 & F2 & F3); auto.
    + subst t'. apply Forall_forall. intros q Hq. apply in_map_iff in Hq. destruct Hq as (x & <- & _). apply quantise_i16.
    + clear - Hl Lw Hc. clearbody t'. pose proof (Z.mul_div_le (zlen t) ch ltac:(lia)). lia.
    + rewrite app_nil_r in F1. exists w2, out2, w2', rs2. split; [exact F1|]. split; [exact F2|]. rewrite F3. f_equal.
      assert (W : whole_blocks ch t' = t').
      { unfold whole_blocks. apply firstn_all2. rewrite Lw. replace (ch * (zlen t / ch) / ch) with (zlen t / ch) by (rewrite Z.mul_comm, Z.div_mul; lia). rewrite <- Lw. unfold zlen. lia. }
      rewrite W. subst t'. rewrite map_map. apply map_ext_in. intros q Hq. rewrite Forall_forall in Hw. apply requantise_idempotent. now apply Hw.
Qed.
Print Assumptions C56_copy.

(** Exact copies of everything would be false: 513 comes back as 512, -32768 as -32767. *)
Theorem C56_exact_refuted : forall p, exists t w out w' rs,
  Forall is_i16 t /\ wav_decode_all (mkWav (mkInfo 44100 1) (pcm_bytes t) 0) [repeat f0 8] = Ok (w, out) /\
  wav_encode_all p (wav_new (mkInfo 44100 1)) (map reported out) = Ok (w', rs) /\ wav_pcm w' <> pcm_bytes t /\
  wav_pcm w' = pcm_bytes [512; 515; -32767; 1000].
Proof.
  intros p. set (t := [513; 515; -32768; 1000]).
  assert (Ht : Forall is_i16 t) by (unfold t, is_i16; repeat constructor; lia).
  destruct (decode_all_from (mkInfo 44100 1) [] t ltac:(cbn; lia) Ht ltac:(cbn; lia) [repeat f0 8] 0 ltac:(cbn; lia)) as (w & E & _ & _).
  assert (F : flat_map reported (fill_all 1 (map restore t) [repeat f0 8]) = map restore t).
  { apply fill_everything; [lia|]. rewrite zlen_map. vm_compute. discriminate. }
  pose proof (encode_all_from p (mkInfo 44100 1) ltac:(cbn; lia) (map reported (fill_all 1 (map restore t) [repeat f0 8])) []) as E2.
  rewrite <- flat_map_concat_map, F, zlen_map in E2. specialize (E2 ltac:(vm_compute; reflexivity)).
  cbv zeta in E2. cbn [si_channels] in E2. rewrite whole_of_fill in E2 by (auto; lia).
  cbn [app] in E2. rewrite app_nil_r in E.
  exists t, w. do 2 eexists. eexists. split; [exact Ht|]. split; [exact E|]. split; [exact E2|]. cbn [wav_pcm].
  split; vm_compute; [discriminate|reflexivity].
Qed.
Print Assumptions C56_exact_refuted.
Example C56_applies : halfway 513 /\ ~ halfway 1000 /\ capacity 2 [repeat f0 5; repeat f0 3] = 6.
Proof.
  split; [exists 9; repeat split; reflexivity || (vm_compute; congruence)|]. split; [|reflexivity].
  intros (k & Hk & [H1 H2] & H3). assert (k = 9).
  { destruct (Z.eq_dec k 9); [auto|]. pose proof (Z.pow_le_mono_r 2 10 k ltac:(lia) ltac:(lia)). change (Z.abs 1000) with 1000 in *. change (2 ^ 10) with 1024 in *. lia. }
  subst k. vm_compute in H3. discriminate.
Qed.
