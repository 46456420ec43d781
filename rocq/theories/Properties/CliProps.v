(** * Property C50: converting with the command line tool and back *)
From Coq Require Import ZArith List Bool Reals Lra Lia.
From Flocq Require Import Core IEEE754.BinarySingleNaN.
From Verif Require Import Model.Base Model.F32 Model.Sample Model.Adhoc Model.Bincode Model.Wav Model.Cli
  Spec.Recording Spec.Frames Spec.Files Spec.Wave
  Proofs.BaseFacts Proofs.FloatFacts Proofs.Predict Proofs.EncodeFacts Proofs.RoundTrip Proofs.SignalFacts Proofs.WavFacts Proofs.Chunks
  Proofs.Requantise Proofs.CliFacts Properties.CallProps Properties.WavProps Properties.RequantiseProps Proofs.WavFile.
Import ListNotations.
Open Scope Z_scope.

(** Channel [c] of an interleaved track. *)
Definition channel (ch c : Z) (t : list Z) : list Z :=
  map (fun k => nth (Z.to_nat (k * ch + c)) t 0) (range (zlen t / ch)).
(** Files the theorems are about: the tool's WAV reader accepts the file as [t] (and perhaps half
    a sample), 1 to 341 channels, at least three blocks, fewer than 2^31 - 18 samples. *)
Definition readable (p : profile) (file : list Z) (info : stream_info) (t : list Z) : Prop :=
  exists w odd, wav_load p file = Ok (Some w) /\ wav_info w = info /\ wav_pcm w = pcm_bytes t ++ odd /\ (length odd <= 1)%nat /\
    Forall is_i16 t /\ format_fits info /\ si_channels info <= 341 /\ 3 * si_channels info <= zlen t < 2 ^ 31 - 18.
(** Converting to .adhoc at [level] with one build and back with another gives a WAV file with samples [t']. *)
Definition converts (p r : profile) (file : list Z) (level : Z) (info : stream_info) (t' : list Z) : Prop :=
  exists mid, wav_to_adhoc p file level = Ok (Some mid) /\
    adhoc_to_wav r mid = Ok (Some (canonical_header (si_rate info) (si_channels info) (2 * zlen t') ++ pcm_bytes t')).

(** ** Lemmas *)
Lemma load_cursor p file w : wav_load p file = Ok (Some w) -> wav_cursor w = 0.
Proof.
  unfold wav_load. destruct (zlen file <? 256); [discriminate|]. destruct (find_tag _ 0) as [d|]; [|discriminate].
  intros H. do 5 inv_bind H. destruct (_ && _); [discriminate|]. destruct (negb _); [discriminate|]. inv_bind H. injection H as <-. reflexivity.
Qed.
Definition pieces (ch : Z) (n : nat) (t : list Z) : list (list f32) := cut (S (S n)) (Z.to_nat (chunk ch)) (map restore t).
Lemma convert p r file level info t : readable p file info t -> 0 <= level ->
  exists n, zlen t <= Z.of_nat n /\
    recording_ok (si_channels info) (pieces (si_channels info) n t) /\
    (safe_build p (inv_gain level) (si_channels info) (pieces (si_channels info) n t) ->
     safe_build r (inv_gain level) (si_channels info) (pieces (si_channels info) n t) ->
     converts p r file level info (map quantise (lossy_signal level (si_channels info) (pieces (si_channels info) n t)))).
Proof.
  intros (w & odd & EL & EI & EP & Ho & Ht & Hf & Hc & Hl) Hlv. pose proof Hf as (Hc1 & Hr & Hrc).
  pose proof (load_cursor _ _ _ EL) as E0. set (ch := si_channels info) in *.
  set (n := length (wav_pcm w)).
  assert (Hn : zlen t <= Z.of_nat n).
  { subst n. rewrite EP, app_length. pose proof (zlen_pcm t). unfold zlen in *. lia. }
  exists n. split; [exact Hn|].
  destruct (cut_recording ch (map restore t) (S (S n))) as [HR HG]; [lia|rewrite zlen_map; lia|rewrite zlen_map; lia|].
  change (cut (S (S n)) (Z.to_nat (chunk ch)) (map restore t)) with (pieces ch n t) in HR, HG.
  split; [exact HR|]. intros Sp Sr.
  rewrite <- (new_codec_inv info level Hlv) in Sp.
  destruct (encode_recording p info level (pieces ch n t) HR Sp) as (c1 & E & _).
  destruct (loaded_playing p r info level (pieces ch n t) c1 Hlv) as (c2 & E2 & E3 & HP & HF); auto.
  { split; split; try lia; fold ch; change (2 ^ 32) with 4294967296; change (2 ^ 27) with 134217728 in *; nia. }
  fold ch in HP, HF.
  exists (ad_save c1). split.
  - unfold wav_to_adhoc. rewrite EL. cbn [bind]. destruct w as [wi wp wc]. cbn [wav_info wav_pcm wav_cursor] in *. subst wi wc wp.
    rewrite cli_codec, (wav_loop p info t odd) by (auto; fold ch; try lia; reflexivity).
    fold ch. fold n. cbn [Z.to_nat skipn]. change (cut (S (S n)) (Z.to_nat (chunk ch)) (map restore t)) with (pieces ch n t).
    rewrite E. reflexivity.
  - unfold adhoc_to_wav. rewrite E2. cbn [bind]. rewrite E3. cbn [bind].
    assert (TB : ch * total_blocks ch (pieces ch n t) <= zlen t).
    { rewrite total_blocks_whole by lia. unfold pieces. destruct (chunk_pos ch ltac:(lia)) as [_ K].
      unfold chunk. rewrite (cut_whole ch (1024 / ch)) by (try lia; rewrite map_length; unfold zlen in *; lia).
      rewrite whole_len, zlen_map by lia. apply Z.mul_div_le. lia. }
    rewrite (audible_all ch _ ltac:(lia) HG) in HP.
    pose proof (total_blocks_nonneg ch (pieces ch n t) ltac:(lia)) as TN.
    destruct (adhoc_loop r info level (pieces ch n t)) with (fuel := decode_rounds c2) (c := c2) (done := 0%nat) (track := @nil Z) (buf := CLI_BUFFER) as (cur & E4).
    + fold ch. lia.
    + fold ch. change (2 ^ 62) with 4611686018427387904. lia.
    + reflexivity.
    + fold ch. rewrite Nat.sub_0_r. exact HP.
    + fold ch. lia.
    + fold ch. change (zlen (@nil Z)) with 0. change (2 ^ 62) with 4611686018427387904. nia.
    + change (mkWav info (pcm_bytes []) (zlen (@nil Z))) with (wav_new info) in E4. rewrite E4. cbn [bind app].
      fold ch. rewrite Nat.mul_0_r. cbn [skipn].
      rewrite C43_file; cbn [wav_info wav_pcm]; auto.
      * cbn [bind]. rewrite zlen_pcm. reflexivity.
      * rewrite zlen_pcm, zlen_map. unfold lossy_signal, output_of. unfold zlen at 1. rewrite DecodeFacts.interleave_len, map_length, length_range.
        change (2 ^ 31) with 2147483648 in *. change (2 ^ 32) with 4294967296. nia.
Qed.

(** Channels at level 0. *)
Definition chan (ch c : Z) (l : list f32) : list f32 :=
  map (fun k => nth (Z.to_nat (k * ch + c)) l f0) (range (zlen l / ch)).
Lemma range_plus a b : 0 <= a -> 0 <= b -> range (a + b) = range a ++ map (Z.add a) (range b).
Proof.
  intros Ha Hb. unfold range. rewrite Z2Nat.inj_add by lia. rewrite seq_app, map_app. f_equal. cbn [Nat.add].
  rewrite map_map. replace (seq (Z.to_nat a) (Z.to_nat b)) with (map (fun i => Z.to_nat a + i)%nat (seq 0 (Z.to_nat b))).
  - rewrite map_map. apply map_ext. intros i. lia.
  - assert (G : forall m k s, map (fun i => m + i)%nat (seq s k) = seq (m + s) k).
    { clear. intros m k. induction k as [|k IH]; intros s; cbn [seq map]; [reflexivity|]. f_equal. rewrite IH. f_equal. lia. }
    rewrite G. f_equal. lia.
Qed.
Lemma chan_app ch c k a b : 0 < ch -> 0 <= c < ch -> zlen a = ch * k -> chan ch c (a ++ b) = chan ch c a ++ chan ch c b.
Proof.
  intros Hc Hr Ha. unfold chan. rewrite zlen_app, Ha. pose proof (zlen_nonneg a). pose proof (zlen_nonneg b). assert (0 <= k) by nia.
  replace (ch * k + zlen b) with (zlen b + k * ch) by lia. rewrite Z.div_add by lia. rewrite (Z.mul_comm ch k), Z.div_mul by lia.
  pose proof (Z.div_pos (zlen b) ch ltac:(lia) Hc). rewrite Z.add_comm, range_plus, map_app by lia. f_equal.
  - apply map_ext_in. intros i Hi. apply in_range in Hi. apply app_nth1. unfold zlen in Ha. nia.
  - rewrite map_map. apply map_ext_in. intros i Hi. apply in_range in Hi. rewrite app_nth2 by (unfold zlen in Ha; nia).
    f_equal. unfold zlen in Ha. nia.
Qed.
Lemma quant_signal_0 ch c pcms : 0 < ch -> 0 <= c < ch ->
  quant_signal (inv_gain 0) ch pcms c = flat_map (fun pcm => map quantise (chan ch c pcm)) pcms.
Proof.
  intros Hc Hr. unfold quant_signal. generalize 0%nat. induction pcms as [|pcm pcms IH]; intros base; [reflexivity|].
  cbn [quant_calls flat_map]. rewrite IH. f_equal. unfold quant_call.
  rewrite (nth_indep _ [] (quant_channel (inv_gain 0) base ch pcm 0)) by (rewrite map_length, length_range; lia).
  rewrite map_nth, nth_range by lia. unfold quant_channel, chan. rewrite map_map. apply map_ext. intros k. unfold preprocessed.
  match goal with |- context [noise ?j] => destruct (noise_small j) end. now rewrite quantise_level0.
Qed.
Lemma cut_chan ch c k fuel : 0 < ch -> 0 <= c < ch -> 0 < k -> forall l, (length l <= fuel)%nat ->
  flat_map (fun pcm => map quantise (chan ch c pcm)) (cut fuel (Z.to_nat (ch * k)) l) = map quantise (chan ch c l).
Proof.
  intros Hc Hr Hk. assert (Hn : 0 < ch * k) by nia. set (n := Z.to_nat (ch * k)).
  assert (CN : chan ch c [] = []) by (unfold chan; rewrite Z.div_0_l by lia; reflexivity).
  induction fuel as [|fuel IH]; intros l Hl; cbn [cut].
  - destruct l; [|cbn in Hl; lia]. now rewrite CN.
  - destruct l as [|x l]; [now rewrite CN|]. cbn [flat_map]. rewrite IH by (rewrite skipn_length; cbn [length] in *; lia).
    destruct (Nat.le_gt_cases n (length (x :: l))) as [L|L].
    + assert (E : zlen (firstn n (x :: l)) = ch * k) by (rewrite zlen_firstn; unfold zlen; lia).
      rewrite <- map_app, <- (chan_app ch c k _ _ Hc Hr E), firstn_skipn. reflexivity.
    + rewrite firstn_all2, skipn_all2 by lia. rewrite CN. cbn [map]. apply app_nil_r.
Qed.
Lemma chan_channel ch c t : 0 < ch -> 0 <= c < ch -> chan ch c (map restore t) = map restore (channel ch c t).
Proof.
  intros Hc Hr. unfold chan, channel. rewrite zlen_map, map_map. apply map_ext_in. intros k Hk. apply in_range in Hk.
  rewrite (nth_indep _ f0 (restore 0)); [apply map_nth|]. rewrite map_length. pose proof (Z.mul_div_le (zlen t) ch Hc). unfold zlen in *. nia.
Qed.
Lemma pieces_signal ch c n t : 1 <= ch <= 1024 -> 0 <= c < ch -> zlen t <= Z.of_nat n ->
  quant_signal (inv_gain 0) ch (pieces ch n t) c = map (fun q => quantise (restore q)) (channel ch c t).
Proof.
  intros Hc Hr Hn. rewrite quant_signal_0 by lia. unfold pieces, chunk. destruct (chunk_pos ch Hc) as [_ K].
  rewrite (cut_chan ch c (1024 / ch)) by (try lia; rewrite map_length; unfold zlen in Hn; lia).
  rewrite chan_channel, map_map by lia. reflexivity.
Qed.
Lemma pieces_whole ch n t : 1 <= ch <= 1024 -> zlen t <= Z.of_nat n ->
  flat_map (whole ch) (pieces ch n t) = map restore (whole_blocks ch t).
Proof.
  intros Hc Hn. unfold pieces, chunk. destruct (chunk_pos ch Hc) as [_ K].
  rewrite (cut_whole ch (1024 / ch)) by (try lia; rewrite map_length; unfold zlen in Hn; lia). apply whole_map.
Qed.
Lemma whole_i16 ch t : Forall is_i16 t -> Forall is_i16 (whole_blocks ch t).
Proof.
  intros Ht. apply Forall_forall. intros q Hq. rewrite Forall_forall in Ht. apply Ht.
  rewrite <- (firstn_skipn (Z.to_nat (ch * (zlen t / ch))) t). apply in_or_app. now left.
Qed.
Lemma pieces_unit ch n t : zlen t <= Z.of_nat n -> 1 <= ch <= 1024 -> Forall is_i16 t -> Forall (Forall (in_unit 1.0001)) (pieces ch n t).
Proof.
  intros Hn Hc Ht. assert (G : Forall (in_unit 1.0001) (concat (pieces ch n t))).
  { unfold pieces. rewrite cut_concat by (try rewrite map_length; destruct (chunk_pos ch Hc); unfold zlen in Hn; lia).
    apply Forall_map. eapply Forall_impl; [|exact Ht]. cbv beta. intros q Hq. unfold is_i16 in Hq.
    destruct (normalize_R q ltac:(lia)) as [F E]. split; [exact F|]. change (restore q) with (normalize_sample q).
    assert (B : (-32768 <= IZR q <= 32767)%R) by (split; apply IZR_le; lia). apply Rabs_le_inv in E. apply Rabs_le. lra. }
  apply Forall_forall. intros l Hl. apply Forall_forall. intros x Hx. rewrite Forall_forall in G. apply G. apply in_concat. eauto.
Qed.

Lemma pieces_loud level ch n t : zlen t <= Z.of_nat n -> 1 <= ch <= 1024 -> 0 <= level < 4 -> Forall is_i16 t ->
  Forall (fun q => Z.abs q <= 4096 * 2 ^ level - 70) t ->
  Forall (Forall (in_unit (IZR (2 ^ level) / 8 - 0.002))) (pieces ch n t).
Proof.
  intros Hn Hc Hl Ht HQ. assert (G : Forall (in_unit (IZR (2 ^ level) / 8 - 0.002)) (concat (pieces ch n t))).
  { unfold pieces. rewrite cut_concat by (try rewrite map_length; destruct (chunk_pos ch Hc); unfold zlen in Hn; lia).
    apply Forall_map. apply Forall_forall. intros q Iq. rewrite Forall_forall in Ht, HQ. specialize (Ht q Iq). specialize (HQ q Iq). unfold is_i16 in Ht.
    destruct (normalize_R q ltac:(lia)) as [F E]. split; [exact F|]. change (restore q) with (normalize_sample q).
    apply IZR_le in HQ. rewrite minus_IZR, mult_IZR, abs_IZR in HQ. apply Rabs_le_inv in E. apply Rabs_le_inv in HQ.
    assert (1 <= IZR (2 ^ level) <= 8)%R by (split; apply IZR_le; [|change 8 with (2 ^ 3); apply Z.pow_le_mono_r; lia]; assert (0 < 2 ^ level) by (apply Z.pow_pos_nonneg; lia); lia).
    apply Rabs_le. lra. }
  apply Forall_forall. intros l Hl'. apply Forall_forall. intros x Hx. rewrite Forall_forall in G. apply G. apply in_concat. eauto.
Qed.

(** ** C50 *)
(** Level 0, when no prediction error of any channel is clamped: all whole blocks come back,
    every sample at most one step off (exact unless halfway or -32768). *)
Theorem C50_level0 : forall p r file info t, let ch := si_channels info in
  readable p file info t ->
  (forall c, 0 <= c < ch -> tame (map (fun q => quantise (restore q)) (channel ch c t))) ->
  exists t', converts p r file 0 info t' /\ Forall2 good_copy (whole_blocks ch t) t'.
Proof.
  intros p r file info t ch HRd HT. destruct (convert p r file 0 info t HRd ltac:(lia)) as (n & Hn & HR & HC).
  destruct HRd as (w & odd & _ & _ & _ & _ & Ht & (Hc1 & _) & Hc & _). fold ch in Hc1, Hc, HR, HC.
  assert (HT' : forall c, 0 <= c < ch -> tame (quant_signal (inv_gain 0) ch (pieces ch n t) c)).
  { intros c Hcc. rewrite pieces_signal by lia. now apply HT. }
  exists (map quantise (lossy_signal 0 ch (pieces ch n t))). split.
  - apply HC; apply safe_fifteen; auto using tame_fifteen.
  - rewrite decoded_tame, decoded_level0, pieces_whole by (auto; lia). rewrite !map_map.
    pose proof (whole_i16 ch t Ht) as Hw. induction Hw as [|q l Hq Hw IH]; cbn [map]; constructor; auto.
    rewrite requantise_idempotent by exact Hq. now apply copy_good.
Qed.
Print Assumptions C50_level0.
(** In particular when the track is quiet. *)
Corollary C50_quiet : forall p r file info t, readable p file info t -> Forall (fun q => Z.abs q <= 4094) t ->
  exists t', converts p r file 0 info t' /\ Forall2 good_copy (whole_blocks (si_channels info) t) t'.
Proof.
  intros p r file info t HRd HQ. apply C50_level0; auto. intros c Hc.
  assert (Q : Forall (fun q => Z.abs q <= 4095) (map (fun q => quantise (restore q)) (channel (si_channels info) c t))).
  { apply Forall_map. unfold channel. apply Forall_map. apply Forall_forall. intros k _.
    assert (B : Z.abs (nth (Z.to_nat (k * si_channels info + c)) t 0) <= 4094).
    { destruct (nth_in_or_default (Z.to_nat (k * si_channels info + c)) t 0) as [I| ->]; [|cbn; lia]. rewrite Forall_forall in HQ. now apply HQ. }
    pose proof (one_step (nth (Z.to_nat (k * si_channels info + c)) t 0) ltac:(lia)). lia. }
  apply smooth_tame; [|now apply small_smooth]. eapply Forall_impl; [|exact Q]. cbv beta. intros; lia.
Qed.
Print Assumptions C50_quiet.

(** From level 4 on, every track: within 1.01 * 2^level + 35.2 steps, 67 at the default level 5. *)
Definition near (level a b : Z) : Prop := 100 * Z.abs (b - a) <= 101 * 2 ^ Z.min level 10 + 3520.
Lemma heard_near level q j : 1 <= level -> is_i16 q -> near level q (quantise (heard level (restore q) j)).
Proof.
  intros Hl Hq. unfold is_i16 in Hq. destruct (normalize_R q ltac:(lia)) as [F E]. change (normalize_sample q) with (restore q) in F, E.
  assert (B : (-32768 <= IZR q <= 32767)%R) by (split; apply IZR_le; lia). apply Rabs_le_inv in E.
  destruct (heard_close_over level (restore q) j Hl F) as [Fo Eo]; [apply Rabs_le; lra|].
  set (o := heard level (restore q) j) in *. clearbody o. pose proof (truncate_R o Fo) as T. change (truncate_sample o) with (quantise o) in T.
  unfold near. apply le_IZR. rewrite mult_IZR, abs_IZR, minus_IZR, plus_IZR, mult_IZR.
  unfold loss_bound in Eo. set (g := IZR (2 ^ Z.min level 10)) in *. set (z := IZR (quantise o)) in *. clearbody z.
  assert (G : (1 <= g)%R). { unfold g. apply IZR_le. pose proof (Z.pow_pos_nonneg 2 (Z.min level 10)). lia. } clearbody g.
  set (s := val (restore q)) in *. clearbody s. set (v := val o) in *. clearbody v. set (x := IZR q) in *. clearbody x.
  apply Rabs_lt_inv in T. apply Rabs_le_inv in Eo.
  assert (M : (Rabs (z - x) <= (101 * g + 3520) / 100)%R).
  { revert T. unfold Rmax, Rmin. destruct (Rle_dec 1 v); destruct (Rle_dec _ _); intros T; apply Rabs_le; lra. }
  lra.
Qed.
Lemma decoded_near level ch n t : 1 <= level -> 1 <= ch <= 1024 -> zlen t <= Z.of_nat n -> Forall is_i16 t ->
  Forall2 (near level) (whole_blocks ch t) (map quantise (decoded_signal level ch (pieces ch n t))).
Proof.
  intros Hlv Hc Hn Ht. pose proof (decoded_heard level ch (pieces ch n t) ltac:(lia)) as H.
  rewrite pieces_whole in H by lia. pose proof (whole_i16 ch t Ht) as Hw. clear - H Hw Hlv.
  remember (map restore (whole_blocks ch t)) as s eqn:Es. revert Es Hw. generalize (whole_blocks ch t) as l.
  induction H as [|o s l0 s0 (j & ->) H IH]; intros [|q l] Es Hw; try discriminate; cbn [map] in *; constructor.
  - injection Es as -> _. inversion Hw; subst. apply heard_near; auto.
  - injection Es as _ Es. inversion Hw; subst. now apply IH.
Qed.
Theorem C50_lossy_levels : forall p r file level info t, readable p file info t -> 4 <= level ->
  exists t', converts p r file level info t' /\ Forall2 (near level) (whole_blocks (si_channels info) t) t'.
Proof.
  intros p r file level info t HRd Hlv. destruct (convert p r file level info t HRd ltac:(lia)) as (n & Hn & HR & HC).
  destruct HRd as (w & odd & _ & _ & _ & _ & Ht & (Hc1 & _) & Hc & _). set (ch := si_channels info) in *.
  assert (HT : forall c, 0 <= c < ch -> tame (quant_signal (inv_gain level) ch (pieces ch n t) c)).
  { intros c Hcc. apply smooth_tame; [apply quant_signal_range|]. apply level4_smooth; auto; try lia. apply pieces_unit; auto; lia. }
  exists (map quantise (lossy_signal level ch (pieces ch n t))). split.
  - apply HC; apply safe_fifteen; auto using tame_fifteen.
  - rewrite decoded_tame by auto. apply decoded_near; auto; lia.
Qed.
Print Assumptions C50_lossy_levels.
(** At levels 1 to 3 the same holds for tracks that are not too loud for the level: at most 8122 at level 1,
    16314 at level 2, 32698 at level 3. *)
Theorem C50_by_loudness : forall p r file level info t, readable p file info t -> 1 <= level ->
  Forall (fun q => Z.abs q <= 4096 * 2 ^ level - 70) t ->
  exists t', converts p r file level info t' /\ Forall2 (near level) (whole_blocks (si_channels info) t) t'.
Proof.
  intros p r file level info t HRd Hlv HQ. destruct (Z_le_gt_dec 4 level) as [H4|H4]; [now apply C50_lossy_levels|].
  destruct (convert p r file level info t HRd ltac:(lia)) as (n & Hn & HR & HC).
  destruct HRd as (w & odd & _ & _ & _ & _ & Ht & (Hc1 & _) & Hc & _). set (ch := si_channels info) in *.
  assert (HT : forall c, 0 <= c < ch -> tame (quant_signal (inv_gain level) ch (pieces ch n t) c)).
  { intros c Hcc. apply smooth_tame; [apply quant_signal_range|]. apply loudness_smooth; auto; try lia. apply pieces_loud; auto; lia. }
  exists (map quantise (lossy_signal level ch (pieces ch n t))). split.
  - apply HC; apply safe_fifteen; auto using tame_fifteen.
  - rewrite decoded_tame by auto. now apply decoded_near; try lia.
Qed.
Print Assumptions C50_by_loudness.
Corollary C50_default : forall p r file info t, readable p file info t ->
  exists t', converts p r file 5 info t' /\ Forall2 (fun a b => Z.abs (b - a) <= 67) (whole_blocks (si_channels info) t) t'.
Proof.
  intros p r file info t H. destruct (C50_lossy_levels p r file 5 info t H ltac:(lia)) as (t' & C & F). exists t'. split; [exact C|].
  clear - F. induction F as [|a b l l' N F IH]; constructor; auto. unfold near in N. change (2 ^ Z.min 5 10) with 32 in N. lia.
Qed.
Print Assumptions C50_default.

(** Not every WAV converts.  With fewer than three blocks in the first 1024 samples (too short,
    or 342 to 1024 channels) the tool panics... *)
Theorem C50_panics : forall p file level w t odd, let ch := si_channels (wav_info w) in
  wav_load p file = Ok (Some w) -> wav_pcm w = pcm_bytes t ++ odd -> (length odd <= 1)%nat -> Forall is_i16 t ->
  1 <= ch <= 1024 -> 0 < zlen t -> 342 <= ch \/ zlen t < 3 * ch ->
  panics (wav_to_adhoc p file level).
Proof.
  intros p file level [info pcm cur] t odd ch EL EP Ho Ht Hc Hp Hs. pose proof (load_cursor _ _ _ EL) as E0.
  cbn [wav_info wav_pcm wav_cursor] in *. subst pcm cur.
  unfold wav_to_adhoc. rewrite EL. cbn [bind wav_info wav_pcm]. rewrite cli_codec, (wav_loop p info t odd); auto; try lia.
  2:{ rewrite app_length. pose proof (zlen_pcm t). unfold zlen in *. lia. }
  fold ch. cbn [Z.to_nat skipn cut]. destruct (map restore t) as [|x l] eqn:E; [destruct t; [change (zlen (@nil Z)) with 0 in Hp; lia|discriminate]|].
  rewrite <- E. destruct (C28_short_first_call p info level (firstn (Z.to_nat (chunk ch)) (map restore t))) as [[y Y] _]; fold ch; [lia| |].
  - destruct (chunk_pos ch Hc) as [K _]. rewrite zlen_firstn, zlen_map. destruct Hs as [Hs|Hs]; [|lia].
    unfold chunk in *. assert (1024 / ch < 3) by (apply Z.div_lt_upper_bound; lia). nia.
  - unfold encode_all. cbn [foldM]. rewrite Y. cbn [bind]. eexists. reflexivity.
Qed.
Print Assumptions C50_panics.
(** ... and with more than 1024 channels it succeeds with an empty file: every sample is lost. *)
Theorem C50_wide_lost : forall p r file level w t odd, let info := wav_info w in
  wav_load p file = Ok (Some w) -> wav_pcm w = pcm_bytes t ++ odd -> (length odd <= 1)%nat -> Forall is_i16 t ->
  1024 < si_channels info -> format_fits info -> 0 <= level ->
  converts p r file level info [].
Proof.
  intros p r file level [info pcm cur] t odd i EL EP Ho Ht Hc Hf Hlv. subst i. pose proof (load_cursor _ _ _ EL) as E0.
  cbn [wav_info wav_pcm wav_cursor] in *. subst pcm cur. pose proof Hf as (Hc1 & Hr & Hrc).
  assert (HR : recording_ok (si_channels info) []).
  { split; [lia|]. split; [exact I|]. split; [constructor|]. split; cbn; lia. }
  destruct (loaded_playing p r info level [] (new_codec info level) Hlv) as (c2 & E2 & E3 & HP & HF); auto.
  { split; split; try lia; change (2 ^ 32) with 4294967296; change (2 ^ 27) with 134217728 in *; nia. }
  { constructor. }
  exists (ad_save (new_codec info level)). split.
  - unfold wav_to_adhoc. rewrite EL. cbn [bind wav_info wav_pcm]. rewrite cli_codec. cbn [wav_to_adhoc_loop].
    destruct (decode_ok info t odd 0 CLI_BUFFER ltac:(lia) ltac:(pose proof (zlen_nonneg t); lia) Ht Ho) as (n & _ & En & E & _).
    rewrite E. cbn [bind]. unfold fill. cbn [fst snd]. change (zlen CLI_BUFFER) with 1024. rewrite Z.div_small by lia. rewrite Z.mul_0_r.
    rewrite Z.min_l by apply zlen_nonneg. reflexivity.
  - unfold adhoc_to_wav. rewrite E2. cbn [bind]. rewrite E3. cbn [bind].
    destruct (decode_rounds c2) as [|fuel] eqn:EF; [lia|]. cbn [adhoc_to_wav_loop].
    destruct (playing_call r c2 info level [] 0 _ CLI_BUFFER HP) as (c' & buf' & R' & E & _ & _).
    assert (D0 : (length CLI_BUFFER / Z.to_nat (si_channels info) = 0)%nat) by (apply Nat.div_small; change (length CLI_BUFFER) with 1024%nat; lia).
    rewrite D0 in E. cbn [Nat.min] in E. rewrite E. change (0 <? 0)%nat with false. cbn [bind].
    rewrite C43_file by (cbn [wav_info wav_pcm wav_new]; auto; reflexivity). reflexivity.
Qed.
Print Assumptions C50_wide_lost.
(** At any level a release build converts every such file to one of the same length (how good the
    samples are is what the theorems above are about; with a debug build a clamped residual can panic). *)
Theorem C50_release : forall file level info t, readable Release file info t -> 0 <= level ->
  exists t', converts Release Release file level info t' /\ zlen t' = zlen (whole_blocks (si_channels info) t).
Proof.
  intros file level info t HRd Hlv. destruct (convert Release Release file level info t HRd Hlv) as (n & Hn & HR & HC).
  destruct HRd as (w & odd & _ & _ & _ & _ & Ht & (Hc1 & _) & Hc & _). set (ch := si_channels info) in *.
  exists (map quantise (lossy_signal level ch (pieces ch n t))). split; [apply HC; apply safe_release|].
  rewrite zlen_map. unfold lossy_signal. rewrite zlen_output, total_blocks_whole, pieces_whole, zlen_map by lia.
  reflexivity.
Qed.
Print Assumptions C50_release.

(** Which files are [readable]: all the reader accepts, within the limits. *)
Lemma byte_pairs n : forall l, (length l <= n)%nat -> Forall is_byte l ->
  exists t odd, l = pcm_bytes t ++ odd /\ (length odd <= 1)%nat /\ Forall is_i16 t /\ zlen t = zlen l / 2.
Proof.
  induction n as [|n IH]; intros l Hl HB; [|destruct l as [|a [|b l]]].
  - destruct l; [|cbn in Hl; lia]. exists [], []. repeat split; auto.
  - exists [], []. repeat split; auto.
  - exists [], [a]. repeat split; auto.
  - inversion HB as [|? ? Ha HB1]; subst. inversion HB1 as [|? ? Hb HB2]; subst. unfold is_byte in Ha, Hb.
    destruct (IH l) as (t & odd & -> & Ho & Ht & Hz); [cbn [length] in Hl; lia|auto|].
    exists (swrap 16 (a + 256 * b) :: t), odd. split; [|split; [exact Ho|split]].
    + cbn [pcm_bytes flat_map app]. change (flat_map bytes16 t) with (pcm_bytes t). unfold bytes16.
      assert (E : forall x, x mod 256 + 256 * ((x / 256) mod 256) = uwrap 16 x).
      { intros x. unfold uwrap. change (2 ^ 16) with (256 * 256). rewrite Z.rem_mul_r by lia. reflexivity. }
      pose proof (E (swrap 16 (a + 256 * b))) as E1. rewrite uwrap_swrap, uwrap_small in E1 by lia.
      set (s := swrap 16 (a + 256 * b)) in *. clearbody s. cbn [app].
      pose proof (Z.mod_pos_bound s 256 ltac:(lia)). pose proof (Z.mod_pos_bound (s / 256) 256 ltac:(lia)).
      f_equal; [lia|]. f_equal; lia.
    + constructor; [|exact Ht]. unfold is_i16. pose proof (swrap_range 16 (a + 256 * b) ltac:(lia)) as R. change (2 ^ (16 - 1)) with 32768 in R. lia.
    + rewrite !zlen_cons, Hz. replace (1 + (1 + zlen (pcm_bytes t ++ odd))) with (zlen (pcm_bytes t ++ odd) + 1 * 2) by lia.
      rewrite Z.div_add by lia. lia.
Qed.
Theorem C50_every_file : forall p file w, Forall is_byte file -> wav_load p file = Ok (Some w) ->
  format_fits (wav_info w) -> si_channels (wav_info w) <= 341 ->
  3 * si_channels (wav_info w) <= wav_num_samples w < 2 ^ 31 - 18 ->
  exists t, zlen t = wav_num_samples w /\ readable p file (wav_info w) t.
Proof.
  intros p file w HB HL Hf Hc Hn.
  assert (P : exists t odd, wav_pcm w = pcm_bytes t ++ odd /\ (length odd <= 1)%nat /\ Forall is_i16 t /\ zlen t = zlen (wav_pcm w) / 2).
  { revert HL. unfold wav_load. destruct (zlen file <? 256); [discriminate|]. destruct (find_tag _ 0) as [d|]; [|discriminate].
    intros H. do 5 inv_bind H. destruct (_ && _); [discriminate|]. destruct (negb _); [discriminate|]. inv_bind H. injection H as <-. cbn [wav_pcm].
    assert (HB' : Forall is_byte (skipn (Z.to_nat (d + 8)) file)).
    { apply Forall_forall. intros b Hb. rewrite Forall_forall in HB. apply HB. rewrite <- (firstn_skipn (Z.to_nat (d + 8)) file). apply in_or_app. now right. }
    destruct (_ =? 8) in *.
    - rewrite WavFile.expand_ok in Ha4. injection Ha4 as <-.
      exists (map expand8 (skipn (Z.to_nat (d + 8)) file)), []. rewrite app_nil_r. split; [reflexivity|]. split; [cbn; lia|]. split.
      + apply Forall_map. eapply Forall_impl; [|exact HB']. intros b Hb. rewrite expand8_exact by exact Hb. now apply eight_bit_check.
      + rewrite zlen_pcm, (Z.mul_comm 2), Z.div_mul by lia. reflexivity.
    - injection Ha4 as <-. eapply byte_pairs; auto. }
  destruct P as (t & odd & EP & Ho & Ht & Hz). exists t. split; [exact Hz|]. exists w, odd. unfold wav_num_samples in Hn. rewrite <- Hz in Hn. auto 10.
Qed.
Print Assumptions C50_every_file.

Definition demo_track : list Z := flat_map (fun k => [20 * k; -7 * k]) (range 100) ++ [5].
Definition demo_file : list Z := canonical_header 44100 2 402 ++ pcm_bytes demo_track.
Example C50_applies : match wav_load Debug demo_file with Ok (Some w) => wav_info w = mkInfo 44100 2 /\ wav_num_samples w = 201 | _ => False end /\
  readable Debug demo_file (mkInfo 44100 2) demo_track /\
  Forall (fun q => Z.abs q <= 4094) demo_track.
Proof.
  split; [vm_compute; auto|]. split.
  - eexists _, []. split; [vm_compute; reflexivity|]. rewrite app_nil_r. cbn [wav_info wav_pcm]. repeat split; try (vm_compute; reflexivity); try (vm_compute; discriminate); try (cbn; lia).
    apply Forall_forall. intros x Hx. assert (B : forallb (fun q => (-32768 <=? q) && (q <=? 32767)) demo_track = true) by reflexivity.
    rewrite forallb_forall in B. apply B in Hx. apply andb_prop in Hx. unfold is_i16. lia.
  - apply Forall_forall. intros x Hx. assert (B : forallb (fun q => Z.abs q <=? 4094) demo_track = true) by reflexivity.
    rewrite forallb_forall in B. apply B in Hx. lia.
Qed.
Example C50_short_applies : match wav_load Debug (canonical_header 8000 400 2400 ++ pcm_bytes (repeat 7 1200)) with
  Ok (Some w) => si_channels (wav_info w) = 400 | _ => False end /\
  match wav_load Debug (canonical_header 8000 1100 2200 ++ pcm_bytes (repeat 7 1100)) with Ok (Some w) => si_channels (wav_info w) = 1100 | _ => False end.
Proof. split; vm_compute; reflexivity. Qed.
