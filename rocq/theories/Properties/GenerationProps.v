(** * Property C68: converting the result again

    [readable] and [near] are in Properties/CliProps.v, [whole_blocks] and [good_copy] in
    Properties/RequantiseProps.v, [canonical_header] in Spec/Wave.v. *)
From Coq Require Import ZArith List Bool Lia.
From Verif Require Import Model.Base Model.F32 Model.Sample Model.Adhoc Model.Bincode Model.Wav Model.Cli
  Spec.Recording Spec.Frames Spec.Files Spec.Wave
  Proofs.BaseFacts Proofs.EncodeFacts Proofs.RoundTrip Proofs.SignalFacts Proofs.WavFacts
  Proofs.Requantise Proofs.CliFacts Properties.WavProps Properties.RequantiseProps Proofs.WavFile Properties.CliProps Properties.Demo.
Import ListNotations.
Open Scope Z_scope.

(** Converting a WAV file to .adhoc at [level] with one build and back with another. *)
Definition round (b : profile * profile) (level : Z) (file file' : list Z) : Prop :=
  exists mid, wav_to_adhoc (fst b) file level = Ok (Some mid) /\ adhoc_to_wav (snd b) mid = Ok (Some file').
(** Doing so repeatedly, every time with the builds given. *)
Fixpoint rounds (bs : list (profile * profile)) (level : Z) (file file' : list Z) : Prop :=
  match bs with
  | [] => file' = file
  | b :: bs => exists file1, round b level file file1 /\ rounds bs level file1 file'
  end.
(** The WAV file with samples [t]. *)
Definition wav_of (info : stream_info) (t : list Z) : list Z :=
  canonical_header (si_rate info) (si_channels info) (2 * zlen t) ++ pcm_bytes t.

(** ** Lemmas *)
Lemma saved_readable q info t : format_fits info -> si_channels info <= 341 -> Forall is_i16 t ->
  3 * si_channels info <= zlen t < 2 ^ 31 - 18 -> 106 <= zlen t -> zlen t <> 817508512 ->
  readable q (wav_of info t) info t.
Proof.
  intros Hf Hc Ht Hl H1 H2. exists (mkWav info (pcm_bytes t) 0), []. rewrite app_nil_r.
  assert (E : wav_load q (wav_of info t) = Ok (Some (mkWav info (pcm_bytes t) 0))).
  { unfold wav_of. rewrite <- (zlen_pcm t). apply load_saved; auto.
    - rewrite zlen_pcm. change (2 ^ 31) with 2147483648 in Hl. change (2 ^ 32) with 4294967296. lia.
    - rewrite zlen_pcm. unfold unlucky. lia. }
  repeat split; auto; try apply Hf; try lia.
Qed.
Lemma zlen_whole ch t : 0 < ch -> zlen (whole_blocks ch t) = ch * (zlen t / ch).
Proof.
  intros Hc. unfold whole_blocks. rewrite zlen_firstn. pose proof (Z.mul_div_le (zlen t) ch Hc). pose proof (zlen_nonneg t).
  pose proof (Z.div_pos (zlen t) ch ltac:(lia) Hc). unfold zlen in *. nia.
Qed.
Lemma whole_of_whole ch (t t' : list Z) : 0 < ch -> zlen t' = ch * (zlen t / ch) -> whole_blocks ch t' = t'.
Proof.
  intros Hc E. unfold whole_blocks. rewrite E, (Z.mul_comm ch (zlen t / ch)), Z.div_mul by lia. rewrite <- E.
  apply firstn_all2. unfold zlen. lia.
Qed.
Definition copy (q : Z) : Z := quantise (restore q).
Lemma copy_i16 q : is_i16 (copy q).
Proof. unfold is_i16, copy. change (quantise (restore q)) with (truncate_sample (restore q)). pose proof (FloatFacts.truncate_range (restore q)). lia. Qed.

Lemma level0_exact p r file info t : let ch := si_channels info in
  readable p file info t ->
  (forall c, 0 <= c < ch -> tame (map copy (channel ch c t))) ->
  round (p, r) 0 file (wav_of info (map copy (whole_blocks ch t))).
Proof.
  intros ch HRd HT. destruct (convert p r file 0 info t HRd ltac:(lia)) as (n & Hn & HR & HC).
  destruct HRd as (w & odd & _ & _ & _ & _ & Ht & (Hc1 & _) & Hc & _). fold ch in Hc1, Hc, HR, HC.
  assert (HT' : forall c, 0 <= c < ch -> tame (quant_signal (inv_gain 0) ch (pieces ch n t) c)).
  { intros c Hcc. rewrite pieces_signal by lia. now apply HT. }
  assert (E : map quantise (lossy_signal 0 ch (pieces ch n t)) = map copy (whole_blocks ch t)).
  { rewrite decoded_tame, decoded_level0, pieces_whole by (auto; lia). rewrite !map_map.
    pose proof (whole_i16 ch t Ht) as Hw. induction Hw as [|q l Hq Hw IH]; cbn [map]; auto.
    rewrite requantise_idempotent by exact Hq. now rewrite IH. }
  rewrite E in HC. apply HC; apply safe_fifteen; auto using tame_fifteen.
Qed.
Lemma channel_copy ch c t : 0 < ch -> 0 <= c < ch -> Forall is_i16 t ->
  channel ch c (map copy (whole_blocks ch t)) = map copy (channel ch c t).
Proof.
  intros Hc Hcc Ht. unfold channel. rewrite zlen_map, zlen_whole, (Z.mul_comm ch (zlen t / ch)), Z.div_mul by lia. rewrite map_map.
  apply map_ext_in. intros k Hk. apply in_range in Hk.
  assert (C0 : copy 0 = 0) by (vm_compute; reflexivity).
  rewrite <- C0 at 1. rewrite map_nth. f_equal. unfold whole_blocks. rewrite nth_firstn_lt; [reflexivity|].
  nia.
Qed.
Lemma copy_copy l : Forall is_i16 l -> map copy (map copy l) = map copy l.
Proof. intros H. rewrite map_map. induction H as [|q l Hq H IH]; cbn [map]; auto. rewrite IH. unfold copy at 1 2. now rewrite requantise_idempotent by exact Hq. Qed.
Lemma channel_i16 ch c t : Forall is_i16 t -> Forall is_i16 (channel ch c t).
Proof.
  intros H. unfold channel. apply Forall_map, Forall_forall. intros k _.
  destruct (nth_in_or_default (Z.to_nat (k * ch + c)) t 0) as [I| ->]; [rewrite Forall_forall in H; now apply H|unfold is_i16; lia].
Qed.

(** ** C68 *)
(** At level 0, when no prediction error is clamped, everything that is going to change changes
    in the first round: after that the file is the same, byte for byte, for ever. *)
Theorem C68_level0_settles : forall p r file info t, let ch := si_channels info in
  readable p file info t -> 106 <= ch * (zlen t / ch) -> ch * (zlen t / ch) <> 817508512 ->
  (forall c, 0 <= c < ch -> tame (map (fun q => quantise (restore q)) (channel ch c t))) ->
  exists t', round (p, r) 0 file (wav_of info t') /\ Forall2 good_copy (whole_blocks ch t) t' /\
    forall bs, rounds bs 0 (wav_of info t') (wav_of info t').
Proof.
  intros p r file info t ch HRd H1 H2 HT. pose proof (level0_exact p r file info t HRd HT) as E. fold ch in E.
  destruct HRd as (w & odd & _ & _ & _ & _ & Ht & Hf & Hc & Hl). fold ch in Hc, Hl. assert (Hc1 : 1 <= ch) by apply Hf.
  set (t' := map copy (whole_blocks ch t)) in *. exists t'. split; [exact E|]. split.
  { subst t'. pose proof (whole_i16 ch t Ht) as Hw. clear - Hw. induction Hw as [|q l Hq Hw IH]; cbn [map]; constructor; [now apply copy_good|exact IH]. }
  assert (Z' : zlen t' = ch * (zlen t / ch)) by (subst t'; rewrite zlen_map; apply zlen_whole; lia).
  assert (I' : Forall is_i16 t') by (subst t'; apply Forall_map, Forall_forall; intros; apply copy_i16).
  assert (R' : forall q, readable q (wav_of info t') info t').
  { intros q. apply saved_readable; auto; fold ch; rewrite Z'; auto. pose proof (Z.mul_div_le (zlen t) ch ltac:(lia)).
    assert (3 <= zlen t / ch) by (apply Z.div_le_lower_bound; lia). nia. }
  assert (F : forall b, round b 0 (wav_of info t') (wav_of info t')).
  { intros [q s]. pose proof (level0_exact q s (wav_of info t') info t' (R' q)) as X. fold ch in X.
    rewrite (whole_of_whole ch t t') in X by (auto; lia).
    assert (Y : map copy t' = t') by (subst t'; apply copy_copy; now apply whole_i16). rewrite Y in X. apply X.
    intros c Hcc. subst t'. rewrite channel_copy, copy_copy by (auto using channel_i16; lia). now apply HT. }
  induction bs as [|b bs IH]; cbn [rounds]; eauto.
Qed.
Print Assumptions C68_level0_settles.

Lemma lossy_i16 p r file level info t : readable p file info t -> 4 <= level ->
  exists t', round (p, r) level file (wav_of info t') /\ Forall2 (near level) (whole_blocks (si_channels info) t) t' /\ Forall is_i16 t'.
Proof.
  intros HRd Hlv. destruct (convert p r file level info t HRd ltac:(lia)) as (n & Hn & HR & HC).
  destruct HRd as (w & odd & _ & _ & _ & _ & Ht & (Hc1 & _) & Hc & _). set (ch := si_channels info) in *.
  assert (HT : forall c, 0 <= c < ch -> tame (quant_signal (inv_gain level) ch (pieces ch n t) c)).
  { intros c Hcc. apply smooth_tame; [apply quant_signal_range|]. apply level4_smooth; auto; try lia. apply pieces_unit; auto; lia. }
  exists (map quantise (lossy_signal level ch (pieces ch n t))). split; [|split].
  - apply HC; apply safe_fifteen; auto using tame_fifteen.
  - rewrite decoded_tame by auto. apply decoded_near; auto; lia.
  - apply Forall_map, Forall_forall. intros x _. unfold is_i16. change (quantise x) with (truncate_sample x). pose proof (FloatFacts.truncate_range x). lia.
Qed.
(** From level 4 on, every track: the error after [k] rounds is at most [k] times the error of one. *)
Theorem C68_generations : forall level bs b file info t, let ch := si_channels info in
  readable (fst b) file info t -> 4 <= level -> 106 <= ch * (zlen t / ch) -> ch * (zlen t / ch) <> 817508512 ->
  exists t', rounds (b :: bs) level file (wav_of info t') /\
    Forall2 (fun x y => 100 * Z.abs (y - x) <= zlen (b :: bs) * (101 * 2 ^ Z.min level 10 + 3520)) (whole_blocks ch t) t'.
Proof.
  intros level bs. induction bs as [|b' bs IH]; intros b file info t ch HRd Hlv H1 H2.
  - destruct (C50_lossy_levels (fst b) (snd b) file level info t HRd Hlv) as (t' & C & F). exists t'. split.
    + cbn [rounds]. exists (wav_of info t'). split; [exact C|reflexivity].
    + fold ch in F. clear - F. set (l := whole_blocks ch t) in *. clearbody l. induction F; constructor; auto. unfold near in H. change (zlen [b]) with 1. lia.
  - destruct (lossy_i16 (fst b) (snd b) file level info t HRd Hlv) as (t1 & C & F & I1). fold ch in F.
    destruct HRd as (w & odd & _ & _ & _ & _ & Ht & Hf & Hc & Hl). fold ch in Hc, Hl. assert (Hc1 : 1 <= ch) by apply Hf.
    assert (Z1 : zlen t1 = ch * (zlen t / ch)).
    { unfold zlen at 1. rewrite <- (Forall2_len _ _ _ F). apply zlen_whole. lia. }
    assert (R1 : readable (fst b') (wav_of info t1) info t1).
    { apply saved_readable; auto; fold ch; rewrite Z1; auto. pose proof (Z.mul_div_le (zlen t) ch ltac:(lia)).
      assert (3 <= zlen t / ch) by (apply Z.div_le_lower_bound; lia). nia. }
    destruct (IH b' (wav_of info t1) info t1 R1 Hlv) as (t' & C' & F').
    { fold ch. rewrite Z1, (Z.mul_comm ch (zlen t / ch)), Z.div_mul by lia. exact H1. }
    { fold ch. rewrite Z1, (Z.mul_comm ch (zlen t / ch)), Z.div_mul by lia. exact H2. }
    fold ch in F'. rewrite (whole_of_whole ch t t1) in F' by (auto; lia).
    exists t'. split.
    + exists (wav_of info t1). split; [destruct b; exact C|exact C'].
    + rewrite zlen_cons. clear - F F'. set (l0 := whole_blocks ch t) in *. clearbody l0. revert t' F'. induction F as [|x y l l' N F IH]; intros t' F'; inversion F'; subst; constructor; auto.
      unfold near in N. set (B := 101 * 2 ^ Z.min level 10 + 3520) in *. clearbody B. set (k := zlen (b' :: bs)) in *. clearbody k. lia.
Qed.
Print Assumptions C68_generations.

Example C68_applies : let info := mkInfo 44100 2 in
  readable Debug demo_file info demo_track /\ 106 <= 2 * (zlen demo_track / 2) /\ 2 * (zlen demo_track / 2) <> 817508512 /\
  (forall c, 0 <= c < 2 -> tame (map (fun q => quantise (restore q)) (channel 2 c demo_track))).
Proof.
  cbv zeta. split; [apply C50_applies|]. split; [vm_compute; discriminate|]. split; [vm_compute; discriminate|].
  intros c Hc. apply tameb_tame. assert (C : c = 0 \/ c = 1) by lia. destruct C as [-> | ->]; vm_compute; reflexivity.
Qed.

(** At level 5 the file does not settle: a constant signal of 1000 is heard as 960 in its third
    sample after one round, as 928 after two. *)
Lemma short_pieces n t : t <> [] -> zlen t <= 1024 -> pieces 1 n t = [map restore t].
Proof.
  intros H1 H2. unfold pieces. change (Z.to_nat (chunk 1)) with 1024%nat.
  assert (L : (length (map restore t) <= 1024)%nat) by (rewrite map_length; unfold zlen in H2; lia).
  destruct t as [|q t]; [congruence|]. set (l := map restore (q :: t)) in *.
  change (cut (S (S n)) 1024 l) with (match l with [] => [] | _ => firstn 1024 l :: cut (S n) 1024 (skipn 1024 l) end).
  rewrite firstn_all2, skipn_all2, cut_nil by exact L. subst l. reflexivity.
Qed.
Lemma one_round info t : si_channels info = 1 -> format_fits info -> Forall is_i16 t -> 106 <= zlen t <= 1024 ->
  round (Release, Release) 5 (wav_of info t) (wav_of info (map quantise (lossy_signal 5 1 [map restore t]))).
Proof.
  intros Hc Hf Ht Hl.
  assert (R : readable Release (wav_of info t) info t) by (apply saved_readable; rewrite ?Hc; auto; lia).
  destruct (convert Release Release (wav_of info t) 5 info t R ltac:(lia)) as (n & Hn & HR & HC).
  rewrite Hc, short_pieces in HC by (try lia; intros ->; cbn in Hl; lia). apply HC; apply safe_release.
Qed.
Theorem C68_lossy_settles_refuted : exists file file1 file2,
  round (Release, Release) 5 file file1 /\ round (Release, Release) 5 file1 file2 /\ file1 <> file2.
Proof.
  pose (info := mkInfo 44100 1). pose (gen := fun t => map quantise (lossy_signal 5 1 [map restore t])). pose (t := repeat 1000 106).
  assert (Hf : format_fits info) by (repeat split; cbn; lia).
  assert (G : forall t, Forall is_i16 (gen t)).
  { intros u. apply Forall_map, Forall_forall. intros x _. unfold is_i16. change (quantise x) with (truncate_sample x). pose proof (FloatFacts.truncate_range x). lia. }
  exists (wav_of info t), (wav_of info (gen t)), (wav_of info (gen (gen t))). split; [|split].
  - apply one_round; auto; [apply Forall_forall; intros x Hx; apply repeat_spec in Hx; subst; unfold is_i16; lia|].
    unfold zlen, t. rewrite repeat_length. lia.
  - apply one_round; auto. vm_compute. split; discriminate.
  - intros E. apply (f_equal (fun f => nth 48 f 0)) in E. revert E. vm_compute. discriminate.
Qed.
Print Assumptions C68_lossy_settles_refuted.
