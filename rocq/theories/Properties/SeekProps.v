(** * Properties C18, C19: seeking

    [target_block] and [heard_from] are defined in Spec/Seeking.v, [encode_all],
    [decode_all], [recording_ok], [decoded_signal] and the other words in Spec/Recording.v,
    [play_all] (decode calls, rewinds and seeks) and [panics] in Spec/Frames.v. *)
From Coq Require Import ZArith List Bool Lia.
From Flocq Require Import IEEE754.BinarySingleNaN.
From Verif Require Import Model.Base Model.F32 Model.Sample Model.Frame Model.Adhoc Spec.Codec Spec.Recording Spec.Frames Spec.Files Spec.Seeking
  Proofs.BaseFacts Proofs.FloatFacts Proofs.Headers Proofs.FrameFacts Proofs.EncodeFacts Proofs.DecodeFacts Proofs.RoundTrip Proofs.SignalFacts Proofs.FrameLaws
  Proofs.SeekFacts Proofs.SeekRecording Proofs.SeekTarget Properties.Demo.
Import ListNotations.
Open Scope Z_scope.

(** ** C18: where a seek lands *)
(** Whatever was encoded and whatever was played before, after a seek to any block of the
    recording, or to its end, a client hears the blocks from there on. *)
Theorem C18_seek_any : forall p info level pcms c1 ops c ms,
  let ch := si_channels info in
  let t := target_block info ms in
  0 <= level -> info_fits info -> recording_ok ch pcms -> no_long_gap ch pcms ->
  encode_all p (new_codec info level) pcms = Ok c1 -> play_all p ops c1 = Ok c ->
  pcms <> [] -> ms <> 0 -> t <= total_blocks ch pcms ->
  exists c', ad_seek p c (SStart ms) = Ok c' /\
    zlen (heard_from level ch pcms t) = ch * (total_blocks ch pcms - t) /\
    forall bufs, exists c2 rs, decode_all p c' bufs = Ok (c2, rs) /\
      concat (map reported rs) = firstn (Z.to_nat (room ch bufs)) (heard_from level ch pcms t).
Proof.
  intros p info level pcms c1 ops c ms ch t Hl HI HR HG E HP Hne Hms Ht.
  destruct (recording_holding p info level pcms c1 ops c Hl HI HR E HP) as [m H]. fold ch in H.
  destruct H as [H1 H2 H3 H4 H5 H6 H7 H8]. fold ch in H2, H6, H7.
  pose proof HR as (Hch & Hfirst & _ & _ & Hlen).
  set (rows := frames_of (inv_gain level) ch pcms) in *.
  pose proof (frames_sizes (inv_gain level) ch pcms HR) as HF. fold rows in HF.
  pose proof (sum_total ch rows pcms HF) as HS.
  pose proof (total_samples_blocks ch pcms) as TB. pose proof (total_samples_bound ch pcms Hch) as TS.
  assert (Lr : length rows = length pcms) by (eapply Forall2_len; eauto).
  pose proof (target_nonneg info ms) as T0. fold t in T0.
  destruct (seek_spec p c info m rows ms H1 H2 H3 H4 H5 H6 H7 (frames_marked _ _ _)) as (c' & i & EK & ST & Hi & Hb & Wi & HD);
    try (fold t); auto; try lia.
  { intros X. apply (f_equal (@length _)) in X. rewrite Lr in X. destruct pcms; [congruence|discriminate]. }
  fold t in Wi, Hb, HD. clearbody t.
  destruct H7 as (HM & HO & _). fold ch in HO.
  destruct (seek_output p (inv_gain level) ch pcms i HR HO ltac:(lia)) as [Hs HOut]. fold rows in Hs, HOut.
  assert (Es : block_of_row rows i = call_start ch t pcms).
  { unfold block_of_row. rewrite Wi, (walk_start ch t pcms Hch rows 0 HF) by lia. f_equal. lia. }
  assert (Ereach : reach_run 0 (skipn (S i) rows) = sum_n (skipn (S i) rows)).
  { apply reach_gap_ok.
    - apply (gap_ok_app (firstn (S i) rows)). rewrite firstn_skipn. subst rows. unfold frames_of.
      apply make_rows_gap; auto; [unfold zlen; rewrite repeat_length; lia|now apply first_ok_rec].
    - pose proof (DecodeFacts.rows_ok_sizes p _ _ HO) as X. rewrite <- (firstn_skipn (S i) rows) in X. apply Forall_app in X. tauto. }
  assert (Esum : sum_n rows = block_of_row rows i + row_n (nth i rows []) + sum_n (skipn (S i) rows)).
  { unfold block_of_row. clear -Hi. clearbody rows. revert rows Hi. induction i as [|i IH]; intros [|r rows] Hi; cbn [length] in Hi; try lia.
    - cbn [firstn nth skipn]. unfold sum_n. cbn [map fold_right]. lia.
    - specialize (IH rows ltac:(lia)). change (skipn (S (S i)) (r :: rows)) with (skipn (S i) rows). cbn [firstn nth].
      unfold sum_n in *. cbn [map fold_right]. lia. }
  set (s := call_start ch t pcms) in *. set (T := total_blocks ch pcms) in *.
  rewrite Ereach, HOut, Es in HD. rewrite Es in Hs, Hb, Esum.
  replace (Z.to_nat (row_n (nth i rows []) - (t - s) + sum_n (skipn (S i) rows))) with (Z.to_nat (T - t)) in HD by lia.
  set (k := Z.to_nat (t - s)) in *.
  set (chan := fun x => map restore_in_range (resumed s (quant_signal (inv_gain level) ch pcms x))) in *.
  assert (LQ : forall x, 0 <= x < ch -> zlen (quant_signal (inv_gain level) ch pcms x) = T).
  { intros x Hx. rewrite quant_signal_calls by lia. apply zlen_chan_calls; auto. lia. }
  assert (LC : Forall (fun l => zlen l = Z.of_nat (Z.to_nat (T - t))) (map (skipn k) (map chan (range ch)))).
  { apply Forall_map, Forall_map. apply Forall_forall. intros x Hx. apply in_range in Hx.
    unfold chan. rewrite zlen_skipn, zlen_map, length_resumed by (rewrite LQ; auto). rewrite LQ by auto. subst k. lia. }
  exists c'. split; [exact EK|].
  assert (EH : heard_from level ch pcms t =
    map (fun x => fmul x (gain level)) (interleave f0 (Z.to_nat (T - t)) (map (skipn k) (map chan (range ch))))).
  { rewrite (map_interleave _ f0 f0) by (eapply Forall_impl; [|exact LC]; unfold zlen; cbv beta; intros; lia).
    unfold heard_from. fold s T k. f_equal. rewrite !map_map. apply map_ext. intros x. unfold chan.
    rewrite skipn_map, map_map. reflexivity. }
  split.
  { rewrite EH, zlen_map. unfold zlen. rewrite interleave_len, !map_length, length_range, Nat2Z.inj_mul, !Z2Nat.id by lia. lia. }
  intros bufs. pose proof ST as (_ & ST2 & _).
  destruct (decode_all_spec p bufs c' info m rows _ _ (Z.to_nat (T - t)) HD LC) as (c2 & rs & E2 & RR & _).
  { rewrite !map_length, length_range. reflexivity. }
  { right. reflexivity. }
  exists c2, rs. split; [exact E2|]. rewrite RR, EH. fold ch.
  replace (ad_scale c') with (gain level) by congruence.
  rewrite firstn_map. f_equal. rewrite room_blocks by auto.
  replace (Z.to_nat (ch * Z.of_nat (blocks_of (Z.to_nat ch) bufs)))
    with (blocks_of (Z.to_nat ch) bufs * length (map (skipn k) (map chan (range ch))))%nat
    by (rewrite !map_length, length_range; lia).
  rewrite interleave_min; auto. eapply Forall_impl; [|exact LC]; unfold zlen; cbv beta; intros; lia.
Qed.
Print Assumptions C18_seek_any.

Lemma call_start_bounds ch pcms t : 0 < ch -> 0 <= t -> 0 <= call_start ch t pcms <= t.
Proof.
  intros Hch. revert t; induction pcms as [|pcm pcms IH]; intros t Ht; cbn [call_start]; [lia|].
  pose proof (Z.div_pos (zlen pcm) ch (zlen_nonneg pcm) Hch).
  destruct (Z.leb_spec t (zlen pcm / ch)); [lia|]. specialize (IH (t - zlen pcm / ch) ltac:(lia)). lia.
Qed.
Lemma heard_tame level ch pcms t :
  recording_ok ch pcms -> (forall c, 0 <= c < ch -> tame (quant_signal (inv_gain level) ch pcms c)) ->
  0 <= t <= total_blocks ch pcms ->
  heard_from level ch pcms t = skipn (Z.to_nat (ch * t)) (decoded_signal level ch pcms).
Proof.
  intros (Hch & H3 & _) HT Ht. unfold heard_from, decoded_signal, output_of.
  pose proof (call_start_bounds ch pcms t Hch ltac:(lia)) as HB.
  assert (Hs : call_start ch t pcms = 0 \/ 3 <= call_start ch t pcms).
  { destruct pcms as [|pcm pcms]; cbn [call_start] in *; [auto|].
    destruct (Z.leb_spec t (zlen pcm / ch)); [auto|]. right.
    pose proof (call_start_bounds ch pcms (t - zlen pcm / ch) Hch ltac:(lia)).
    pose proof (Z.div_le_lower_bound (zlen pcm) ch 3 Hch ltac:(lia)). lia. }
  set (s := call_start ch t pcms) in *. clearbody s. set (T := total_blocks ch pcms) in *.
  assert (LQ : forall x, 0 <= x < ch -> zlen (quant_signal (inv_gain level) ch pcms x) = T).
  { intros x Hx. rewrite quant_signal_calls by lia. apply zlen_chan_calls; auto. lia. }
  clearbody T.
  replace (Z.to_nat T) with (Z.to_nat t + Z.to_nat (T - t))%nat by lia.
  rewrite interleave_add, skipn_app, skipn_all2.
  2: { rewrite interleave_len, map_length, length_range. nia. }
  rewrite interleave_len, map_length, length_range.
  replace (Z.to_nat (ch * t) - Z.to_nat t * Z.to_nat ch)%nat with 0%nat by nia.
  cbn [app skipn]. f_equal. rewrite map_map. apply map_ext_in. intros c Hc. apply in_range in Hc.
  assert (H16 : Forall i16 (quant_signal (inv_gain level) ch pcms c)).
  { eapply Forall_impl; [|apply quant_signal_range]. cbv beta. intros. unfold i16. lia. }
  rewrite resumed_tame; auto; [|rewrite LQ; lia].
  rewrite skipn_plus, !skipn_map, map_map.
  replace (Z.to_nat s + Z.to_nat (t - s))%nat with (Z.to_nat t) by lia.
  apply map_ext_in. intros q Hq. f_equal.
  pose proof (quant_signal_range (inv_gain level) ch pcms c) as HQ. rewrite Forall_forall in HQ.
  unfold restore_in_range. apply clamp_normalize, HQ. rewrite <- (firstn_skipn (Z.to_nat t) (quant_signal _ _ _ _)). apply in_or_app. auto.
Qed.

(** When no prediction error is out of range, a seek drops the first [t] blocks of the
    recording and nothing else; a seek to 0 drops none. *)
Theorem C18_seek : forall p info level pcms c1 ops c ms,
  let ch := si_channels info in
  let t := target_block info ms in
  0 <= level -> info_fits info -> recording_ok ch pcms -> no_long_gap ch pcms ->
  (forall c, 0 <= c < ch -> tame (quant_signal (inv_gain level) ch pcms c)) ->
  encode_all p (new_codec info level) pcms = Ok c1 -> play_all p ops c1 = Ok c ->
  pcms <> [] -> t <= total_blocks ch pcms ->
  exists c', ad_seek p c (SStart ms) = Ok c' /\
    forall bufs, exists c2 rs, decode_all p c' bufs = Ok (c2, rs) /\
      concat (map reported rs) = firstn (Z.to_nat (room ch bufs)) (skipn (Z.to_nat (ch * t)) (decoded_signal level ch pcms)).
Proof.
  intros p info level pcms c1 ops c ms ch t Hl HI HR HG HT E HP Hne Ht.
  destruct (Z.eq_dec ms 0) as [->|Hms].
  - assert (Et : t = 0) by apply target_0. rewrite Et, Z.mul_0_r. cbn [Z.to_nat skipn].
    destruct (recording_holding p info level pcms c1 ops c Hl HI HR E HP) as [m H].
    pose proof (holding_playing p c info level pcms m Hl HR H) as HPl. fold ch in HPl. rewrite audible_all in HPl by (auto; apply HR).
    exists (ad_init c). split; [unfold ad_seek, ad_info; now rewrite (hd_info _ _ _ _ _ _ H)|].
    intros bufs. destruct (playing_decode p _ info level pcms _ _ bufs HPl) as (c2 & rs & E2 & R & _).
    { right. fold ch. lia. }
    exists c2, rs. split; [exact E2|]. rewrite R. fold ch. rewrite Nat.mul_0_r. cbn [skipn]. now rewrite decoded_tame.
  - destruct (C18_seek_any p info level pcms c1 ops c ms Hl HI HR HG E HP Hne Hms Ht) as (c' & EK & _ & H).
    exists c'. split; [exact EK|]. intros bufs. destruct (H bufs) as (c2 & rs & E2 & R). exists c2, rs. split; [exact E2|].
    rewrite R. f_equal. apply heard_tame; auto. split; [apply target_nonneg|exact Ht].
Qed.
Print Assumptions C18_seek.

(** The block a time stands for is the expected one when the rate is a whole number of
    samples per millisecond and the numbers stay below [2^24]; otherwise it is the expected
    one or a neighbour, up to [2^22] blocks. *)
Theorem C18_target_exact : forall k channels ms,
  0 <= k -> 1000 * k <= 2 ^ 24 -> 0 <= ms <= 2 ^ 24 -> k * ms <= 2 ^ 24 ->
  target_block (mkInfo (1000 * k) channels) ms = k * ms.
Proof. intros. apply target_exact; lia. Qed.
Print Assumptions C18_target_exact.
Theorem C18_target_close : forall rate channels ms,
  0 <= rate <= 2 ^ 24 -> 0 <= ms <= 2 ^ 24 -> rate * ms <= 1000 * 2 ^ 22 ->
  rate * ms / 1000 - 1 <= target_block (mkInfo rate channels) ms <= rate * ms / 1000 + 1.
Proof. exact target_close. Qed.
Print Assumptions C18_target_close.
(** At 44.1 kHz, 10 ms are 441 blocks; 90 ms are 3969 blocks, but a seek goes to 3968. *)
Example C18_target_44100 :
  target_block (mkInfo 44100 2) 10 = 441 /\ 44100 * 90 = 3969 * 1000 /\ target_block (mkInfo 44100 2) 90 = 3968.
Proof. split; [|split]; vm_compute; reflexivity. Qed.

(** The hypotheses of C18 hold for the demo recording played at 2000 blocks a second; 2 ms
    are 4 blocks, inside the first call, 3 ms are 6 blocks, inside the last.  Played and
    rewound before, with a seek in between. *)
Definition slow : stream_info := mkInfo 2000 2.
Definition before : list playback := [Listen (repeat f0 7); SeekTo (SStart 2); Listen (repeat f0 3); Rewind].
Example C18_applies : forall p ms, In ms [2; 3] ->
  info_fits slow /\ recording_ok 2 demo /\ no_long_gap 2 demo /\
  (forall c, 0 <= c < 2 -> tame (quant_signal (inv_gain 4) 2 demo c)) /\
  match encode_all p (new_codec slow 4) demo with
  | Ok c1 => is_ok (play_all p before c1) = true
  | _ => False
  end /\ target_block slow ms = 2 * ms /\ target_block slow ms <= total_blocks 2 demo.
Proof.
  intros p ms Hms. split; [split; split; cbn; lia|]. split; [apply demo_ok|]. split; [apply demo_gap|].
  split; [apply demo_tame; right; left; reflexivity|]. split; [destruct p; vm_compute; reflexivity|].
  destruct Hms as [<-|[<-|[]]]; split; vm_compute; congruence.
Qed.

(** Without [tame] the samples after a seek can differ from the same samples heard without
    the seek: a decoder that plays from the start has gone wrong after an impossible step,
    a decoder that starts in a later call has not. *)
Definition steps : list (list f32) :=
  [map milli [500; -200; 500; -500; -500]; map milli [-500; -500; -500; -500]].
Example C18_seek_differs :
  recording_ok 1 steps /\ no_long_gap 1 steps /\
  tameb (quant_signal (inv_gain 0) 1 steps 0) = false /\
  map B2SF (heard_from 0 1 steps 6) = map B2SF (skipn 6 (decoded_signal 0 1 steps)) /\
  map B2SF (heard_from 0 1 steps 6) <> map B2SF (skipn 6 (lossy_signal 0 1 steps)).
Proof.
  split; [|split; [apply short_no_gap; cbn; lia|split; [vm_compute; reflexivity|split; [vm_compute; reflexivity|vm_compute; discriminate]]]].
  split; [lia|]. split; [vm_compute; discriminate|]. split; [|split; vm_compute; congruence]. repeat constructor.
Qed.

(** ** C20, with any playback before *)
(** Decode calls, rewinds and seeks before a rewind do not change what is heard after it. *)
Theorem C20_after_playback : forall p info level pcms c1 ops c,
  let ch := si_channels info in
  0 <= level -> info_fits info -> recording_ok ch pcms -> no_long_gap ch pcms ->
  encode_all p (new_codec info level) pcms = Ok c1 -> play_all p ops c1 = Ok c ->
  ad_seek p c (SStart 0) = Ok (ad_init c) /\
  forall bufs, exists c2 rs, decode_all p (ad_init c) bufs = Ok (c2, rs) /\
    concat (map reported rs) = firstn (Z.to_nat (room ch bufs)) (lossy_signal level ch pcms).
Proof.
  intros p info level pcms c1 ops c ch Hl HI HR HG E HP.
  destruct (recording_holding p info level pcms c1 ops c Hl HI HR E HP) as [m H].
  pose proof (holding_playing p c info level pcms m Hl HR H) as HPl. fold ch in HPl. rewrite audible_all in HPl by (auto; apply HR).
  split; [unfold ad_seek, ad_info; now rewrite (hd_info _ _ _ _ _ _ H)|].
  intros bufs. destruct (playing_decode p _ info level pcms _ _ bufs HPl) as (c2 & rs & E2 & R & _).
  { right. fold ch. lia. }
  exists c2, rs. split; [exact E2|]. rewrite R. fold ch. rewrite Nat.mul_0_r. reflexivity.
Qed.
Print Assumptions C20_after_playback.

(** ** C19: seeking past the end panics *)
(** Nothing encoded, or a time that stands for a block after the last: a panic, whatever was
    played before.  In builds without overflow checks provided the sample position fits 64
    bits. *)
Theorem C19_past_end : forall p info level pcms c1 ops c ms,
  let ch := si_channels info in
  let t := target_block info ms in
  0 <= level -> info_fits info -> recording_ok ch pcms ->
  encode_all p (new_codec info level) pcms = Ok c1 -> play_all p ops c1 = Ok c ->
  ms <> 0 -> total_blocks ch pcms < t \/ pcms = [] ->
  p = Debug \/ t * ch < 2 ^ 64 ->
  panics (ad_seek p c (SStart ms)).
Proof.
  intros p info level pcms c1 ops c ms ch t Hl HI HR E HP Hms Ht Hp.
  destruct (recording_holding p info level pcms c1 ops c Hl HI HR E HP) as [m H].
  destruct H as [H1 H2 H3 H4 H5 H6 H7 H8]. fold ch in H2, H6, H7.
  pose proof HR as (Hch & Hfirst & _ & _ & Hlen).
  set (rows := frames_of (inv_gain level) ch pcms) in *.
  pose proof (frames_sizes (inv_gain level) ch pcms HR) as HF. fold rows in HF.
  pose proof (sum_total ch rows pcms HF) as HS.
  pose proof (total_samples_blocks ch pcms) as TB. pose proof (total_samples_bound ch pcms Hch) as TS.
  pose proof (target_nonneg info ms) as T0. fold t in T0.
  assert (HB : sum_n rows * ch < 2 ^ 64).
  { rewrite HS. apply Z.le_lt_trans with (2 ^ 58); [lia|]. apply Z.pow_lt_mono_r; lia. }
  destruct (seek_past_end p c info m rows ms H1 H6 H7 HB Hms) as [S1 S2]; try (fold t); try lia.
  { destruct Ht as [Ht|Ht]; [left; lia|right]. subst rows. rewrite Ht. reflexivity. }
  fold t ch in S1, S2. destruct (Z.lt_ge_cases (t * ch) (2 ^ 64)) as [L|L].
  - exists ExpectFailed. auto.
  - destruct Hp as [->|]; [|lia]. exists ArithmeticOverflow. auto.
Qed.
Print Assumptions C19_past_end.
(** 5 ms are block 10 of 8 recorded; and any time of an empty recording. *)
Example C19_applies : forall p,
  info_fits slow /\ recording_ok 2 demo /\ recording_ok 2 [] /\
  match encode_all p (new_codec slow 4) demo with
  | Ok c1 => is_ok (play_all p before c1) = true
  | _ => False
  end /\ total_blocks 2 demo < target_block slow 5 /\ target_block slow 5 * 2 < 2 ^ 64.
Proof.
  intros p. split; [split; split; cbn; lia|]. split; [apply demo_ok|].
  split; [|split; [destruct p; vm_compute; reflexivity|split; vm_compute; reflexivity]].
  split; [lia|]. split; [exact I|]. split; [constructor|]. split; vm_compute; congruence.
Qed.
(** Without overflow checks the sample position wraps around: a seek by [2^63] milliseconds
    in a stereo recording at 1000 blocks a second goes to the start. *)
Theorem C19_wraps_refuted :
  ~ (forall info level pcms c1 ms, 0 <= level -> info_fits info -> recording_ok (si_channels info) pcms ->
     encode_all Release (new_codec info level) pcms = Ok c1 -> 0 < ms < 2 ^ 64 ->
     total_blocks (si_channels info) pcms < target_block info ms -> panics (ad_seek Release c1 (SStart ms))).
Proof.
  intros H. pose proof (H (mkInfo 1000 2) 0 demo) as H'.
  assert (X : match encode_all Release (new_codec (mkInfo 1000 2) 0) demo with
              | Ok c1 => is_ok (ad_seek Release c1 (SStart (2 ^ 63)))
              | _ => false
              end = true) by (vm_compute; reflexivity).
  destruct (encode_all Release (new_codec (mkInfo 1000 2) 0) demo) as [c1| |]; try discriminate X.
  destruct (H' c1 (2 ^ 63)) as [r Hr]; try lia; auto.
  - split; split; cbn; lia.
  - apply demo_ok.
  - vm_compute. reflexivity.
  - rewrite Hr in X. discriminate X.
Qed.
Print Assumptions C19_wraps_refuted.
