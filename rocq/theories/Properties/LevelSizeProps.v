(** * Property C99: what a compression level guarantees about the size of a file *)
From Coq Require Import ZArith Reals List Bool Lia Lra.
From Flocq Require Import Core IEEE754.BinarySingleNaN.
From Verif Require Import Model.Base Model.F32 Model.Sample Model.BitStream Model.NibbleList Model.BitVec Model.Frame Model.Adhoc Model.Bincode
  Model.Wav Model.Cli Spec.Codec Spec.Recording Spec.Frames Spec.Files Spec.Wave
  Proofs.BaseFacts Proofs.FloatFacts Proofs.BitStreamFacts Proofs.BitLog Proofs.Containers Proofs.Headers Proofs.Predict Proofs.FrameFacts Proofs.EncodeFacts Proofs.RoundTrip
  Proofs.FrameLaws Proofs.FileFacts Proofs.WavFacts Proofs.Chunks Proofs.Requantise Proofs.WavFile Proofs.CliFacts Proofs.SignalFacts
  Properties.Demo Properties.CliProps Properties.SizeProps.
Import ListNotations.
Open Scope Z_scope.

(** ** Frames of small quantised samples *)
Definition small (m q : Z) : Prop := Z.abs q <= m.
Definition small_hist (m : Z) (t : hist) : Prop := let '(a, b, c) := t in small m a /\ small m b /\ small m c.
Lemma small_shift m t q : small_hist m t -> small m q -> small_hist m (shift t q).
Proof. destruct t as [[a b] c]. cbn. tauto. Qed.
Lemma small_fold m qs t : small_hist m t -> Forall (small m) qs -> small_hist m (fold_left shift qs t).
Proof. intros H F. revert t H. induction F as [|q qs Hq F IH]; intros t H; cbn [fold_left]; auto. apply IH. now apply small_shift. Qed.
Lemma diffs_small m t qs : 0 <= m <= 32767 -> small_hist m t -> Forall (small m) qs ->
  Forall (fun d => Z.abs d <= 8 * m + 1) (diffs t qs).
Proof.
  intros Hm H F. revert t H. induction F as [|q qs Hq F IH]; intros t H; cbn [diffs]; constructor.
  - destruct t as [[a b] c]. cbn [pred_of small_hist] in *. unfold small in *.
    pose proof (predict_close a b c ltac:(lia) ltac:(lia) ltac:(lia)) as P. unfold extrapolate in P. lia.
  - apply IH. now apply small_shift.
Qed.
Lemma cost_small m k t qs : 0 <= m <= 32767 -> 1 <= k <= 15 -> 8 * m + 1 < 3 * 2 ^ k -> small_hist m t -> Forall (small m) qs ->
  cost (best_exponent (diffs t qs)) (residuals t qs) <= (k + 4) * zlen qs.
Proof.
  intros Hm Hk Hd Ht Hq. pose proof (diffs_small m t qs Hm Ht Hq) as D. pose proof (best_range (diffs t qs)).
  unfold residuals. etransitivity; [apply cost_limit; lia|]. etransitivity; [apply (best_optimal _ k); lia|].
  replace (zlen qs) with (zlen (diffs t qs)) by (unfold zlen; now rewrite length_diffs).
  clear Hq Ht H. induction D as [|d ds H D IH]; [rewrite cost_nil; change (zlen (@nil Z)) with 0; lia|]. rewrite cost_cons, zlen_cons.
  assert (0 < 2 ^ k) by (apply Z.pow_pos_nonneg; lia).
  assert (Z.abs d / 2 ^ k < 3) by (apply Z.div_lt_upper_bound; lia). lia.
Qed.
Definition small_state (m : Z) (st : option hist) : Prop := match st with Some t => small_hist m t | None => True end.
Lemma frame_small m k st qs : 0 <= m <= 32767 -> 1 <= k <= 15 -> 8 * m + 1 < 3 * 2 ^ k -> small_state m st -> Forall (small m) qs ->
  (st = None -> 3 <= zlen qs) -> zlen (fr_bits (make_frame st qs)) <= (k + 4) * zlen qs + (if st then 0 else 48).
Proof.
  intros Hm Hk Hd Hs Hq Hn. pose proof (make_frame_e st qs). rewrite zlen_fr_bits by lia.
  destruct st as [t|]; cbn [make_frame fr_raw fr_res fr_e].
  - change (zlen (@nil Z)) with 0. pose proof (cost_small m k t qs Hm Hk Hd Hs Hq). lia.
  - assert (HN : forall i, small m (nth i qs 0)).
    { intros i. destruct (Nat.lt_ge_cases i (length qs)) as [L|L]; [|rewrite nth_overflow by lia; unfold small; lia].
      rewrite Forall_forall in Hq. apply Hq. now apply nth_In. }
    assert (HK : Forall (small m) (skipn 3 qs)).
    { rewrite <- (firstn_skipn 3 qs) in Hq. apply Forall_app in Hq. tauto. }
    pose proof (cost_small m k (nth 0 qs 0, nth 1 qs 0, nth 2 qs 0) _ Hm Hk Hd ltac:(cbn; auto) HK) as B.
    rewrite zlen_skipn in B. rewrite zlen_firstn. specialize (Hn eq_refl). nia.
Qed.
Lemma row_small m k sts n call : 0 <= m <= 32767 -> 1 <= k <= 15 -> 8 * m + 1 < 3 * 2 ^ k ->
  length sts = length call -> Forall (small_state m) sts -> Forall (fun qs => Forall (small m) qs /\ zlen qs = n) call -> (In None sts -> 3 <= n) ->
  zlen (flat_map fr_bits (make_row sts call)) <= (k + 4) * n * zlen call + 48 * firsts sts.
Proof.
  intros Hm Hk Hd. unfold make_row. revert call. induction sts as [|st sts IH]; intros [|qs call] HL HS HF H3;
    cbn [zipw flat_map]; try discriminate.
  - change (zlen (@nil bool)) with 0. change (zlen (@nil (list Z))) with 0. change (firsts []) with 0. lia.
  - inversion HF as [|? ? [Hq1 Hq2] HF']; subst. inversion HS as [|? ? Hs1 HS']; subst. rewrite zlen_app, zlen_cons.
    pose proof (frame_small m k st qs Hm Hk Hd Hs1 Hq1) as B. pose proof (zlen_nonneg call).
    specialize (IH call ltac:(cbn in HL; lia) HS' HF' ltac:(intros; apply H3; right; auto)).
    pose proof (zlen_nonneg qs). unfold firsts in *. cbn [filter].
    destruct st as [t|]; rewrite ?zlen_cons.
    + specialize (B ltac:(discriminate)). lia.
    + specialize (B ltac:(intros; apply H3; left; auto)). lia.
Qed.
Lemma next_small m sts call : 0 <= m -> Forall (small_state m) sts -> Forall (Forall (small m)) call -> Forall (small_state m) (next_sts sts call).
Proof.
  intros Hm. unfold next_sts. revert call. induction sts as [|st sts IH]; intros [|qs call] HS HF; cbn [zipw]; constructor;
    inversion HS; inversion HF; subst; auto.
  destruct st as [t|]; cbn [next_hist small_state]; apply small_fold; auto. cbn. unfold small. lia.
Qed.

Lemma rows_small m k inv base ch pcms sts : 0 <= m <= 32767 -> 1 <= k <= 15 -> 8 * m + 1 < 3 * 2 ^ k ->
  0 < ch -> zlen sts = ch -> first_ok sts ch pcms -> Forall (small_state m) sts ->
  Forall (Forall (Forall (small m))) (quant_calls inv base ch pcms) ->
  zlen (flat_map fr_bits (concat (make_rows sts (quant_calls inv base ch pcms)))) <= (k + 4) * total_samples ch pcms + 48 * firsts sts.
Proof.
  intros Hm Hk Hd Hch. revert sts base; induction pcms as [|pcm pcms IH]; intros sts base Hs H3 HS HF; cbn [quant_calls make_rows concat total_samples].
  - change (zlen (flat_map fr_bits [])) with 0. pose proof (zlen_nonneg (filter (fun o : option hist => match o with None => true | _ => false end) sts)).
    unfold firsts. lia.
  - cbn [quant_calls] in HF. inversion HF as [|? ? HF1 HF2]; subst.
    rewrite flat_map_app, zlen_app.
    assert (L : length sts = length (quant_call inv base (zlen sts) pcm)) by (rewrite length_quant_call; unfold zlen; lia).
    pose proof (row_small m k sts (zlen pcm / zlen sts) (quant_call inv base (zlen sts) pcm) Hm Hk Hd L HS) as B.
    assert (LC : zlen (quant_call inv base (zlen sts) pcm) = zlen sts) by (unfold zlen at 1; rewrite <- L; reflexivity).
    rewrite LC in B.
    specialize (IH (next_sts sts (quant_call inv base (zlen sts) pcm)) (base + Z.to_nat (zlen sts * (zlen pcm / zlen sts)))%nat).
    rewrite no_firsts in IH by apply next_sts_some.
    specialize (B ltac:(apply Forall_forall; intros qs Hq; split; [rewrite Forall_forall in HF1; now apply HF1|];
      apply in_map_iff in Hq; destruct Hq as (c & <- & _); now apply zlen_quant_channel) H3).
    specialize (IH ltac:(unfold zlen; rewrite length_next_sts; auto)
                   ltac:(destruct pcms; cbn; auto; intros X; now apply next_sts_some in X)
                   ltac:(apply next_small; auto; lia) HF2).
    nia.
Qed.

(** ** Quantised samples at a level *)
(** Every quantised value comes from a sample. *)
Lemma quant_calls_from inv base ch pcms : 0 < ch ->
  Forall (Forall (Forall (fun q => exists s j, In s (concat pcms) /\ q = quantise (dithered inv s (noise j))))) (quant_calls inv base ch pcms).
Proof.
  intros Hch. revert base. induction pcms as [|pcm pcms IH]; intros base; cbn [quant_calls]; constructor.
  - apply Forall_forall. intros qs Hqs. apply in_map_iff in Hqs. destruct Hqs as (c & <- & Hc). apply in_range in Hc.
    unfold quant_channel. apply Forall_forall. intros q Hq. apply in_map_iff in Hq.
    destruct Hq as (k & <- & Hk). apply in_range in Hk. unfold preprocessed.
    eexists. eexists. split; [|reflexivity]. cbn [concat]. apply in_or_app. left. apply nth_In.
    pose proof (Z.mul_div_le (zlen pcm) ch Hch). unfold zlen in *. nia.
  - eapply Forall_impl; [|apply IH]. intros call. apply Forall_impl. intros qs. apply Forall_impl. intros q (s & j & H1 & H2).
    exists s, j. split; auto. cbn [concat]. apply in_or_app. now right.
Qed.
Lemma level_small level s j : 4 <= level -> in_unit 1.0001 s -> small (5 * 2 ^ (13 - Z.min level 10)) (quantise (dithered (inv_gain level) s (noise j))).
Proof.
  intros Hl [Fs Bs]. destruct (dithered_R level s j ltac:(lia) Fs Bs) as (Fx & _ & Bx). set (x := dithered _ _ _) in *. clearbody x. clear s j Fs Bs.
  change (bpow radix2 (-28)) with (/ 268435456)%R in Bx.
  assert (K : 4 <= Z.min level 10 <= 10) by lia. set (k := Z.min level 10) in *. clearbody k. clear Hl level.
  assert (W : exists u, bpow radix2 (- k) = (/ IZR u)%R /\ 5 * 2 ^ (13 - k) = 5 * 8192 / u /\ u * (8192 / u) = 8192 /\ 16 <= u <= 1024 /\ 5 * 8192 / u = 5 * (8192 / u)).
  { assert (k = 4 \/ k = 5 \/ k = 6 \/ k = 7 \/ k = 8 \/ k = 9 \/ k = 10) as [-> |[-> |[-> |[-> |[-> |[-> | ->]]]]]] by lia;
      [exists 16|exists 32|exists 64|exists 128|exists 256|exists 512|exists 1024]; (split; [reflexivity|repeat split; try reflexivity; lia]). }
  destruct W as (u & Eb & Em & Eu & Bu & Ed). rewrite Eb in Bx. unfold small. rewrite Em, Ed. clear Em Ed Eb.
  set (v := 8192 / u) in *. clearbody v.
  assert (Ru : (16 <= IZR u <= 1024)%R) by (split; apply IZR_le; lia).
  assert (Rv : (/ IZR u = IZR v / 8192)%R) by (rewrite <- Eu, mult_IZR; field; split; [apply not_0_IZR; nia|lra]).
  assert (Bv : (8 <= IZR v <= 512)%R) by (split; apply IZR_le; nia).
  rewrite Rv in Bx. pose proof (quantise_small _ _ Fx Bx ltac:(lra)) as Q.
  apply Z.lt_succ_r, lt_IZR. rewrite succ_IZR, mult_IZR. lra.
Qed.

(** ** C99 *)
(** Bits a sample takes at most at level 4 and above. *)
Definition bits_most (level : Z) : Z := 21 - Z.min level 10.
(** At level 4 and above a recording of [n] samples within full scale takes at most [21 - level] bits a sample (11 from level 10
    on), besides what C66 adds for each channel, each call and the file. *)
Theorem C99_saved_size : forall p info level pcms c,
  let ch := si_channels info in
  let n := ch * total_blocks ch pcms in
  let calls := zlen pcms in
  4 <= level -> recording_ok ch pcms ->
  Forall (Forall (fun s => is_finite s = true /\ (Rabs (B2R s) <= 1.0001)%R)) pcms ->
  encode_all p (new_codec info level) pcms = Ok c ->
  8 * zlen (ad_save c) <= bits_most level * n + 48 * ch + 133 * (ch * calls) + 1259.
Proof.
  intros p info level pcms c ch n calls Hl HR HU E. pose proof (encoded_safe p info level pcms c HR E) as HS.
  destruct (encode_recording p info level pcms HR HS) as (c1' & E' & _ & R & _).
  rewrite E in E'. injection E' as <-. clear E. fold ch in R. pose proof HR as (Hch & H3 & _).
  rewrite new_codec_inv in R by lia. set (inv := inv_gain level) in *.
  assert (L0 : zlen (repeat (@None hist) (Z.to_nat ch)) = ch) by (rewrite zlen_repeat; lia).
  set (m := 5 * 2 ^ (13 - Z.min level 10)).
  assert (Hm : 1 <= 2 ^ (13 - Z.min level 10) <= 2 ^ 9).
  { split; [change 1 with (2 ^ 0)|]; apply Z.pow_le_mono_r; lia. }
  assert (Hd : 2 ^ (17 - Z.min level 10) = 2 ^ (13 - Z.min level 10) * 2 ^ 4) by (rewrite <- Z.pow_add_r by lia; f_equal; lia).
  assert (HQ : Forall (Forall (Forall (small m))) (quant_calls inv 0 ch pcms)).
  { eapply Forall_impl; [|apply quant_calls_from; auto]. intros call. apply Forall_impl. intros qs. apply Forall_impl.
    intros q (s & j & Hs & ->). apply level_small; auto. apply in_concat in Hs. destruct Hs as (pcm & H1 & H2).
    rewrite Forall_forall in HU. specialize (HU pcm H1). rewrite Forall_forall in HU. exact (HU s H2). }
  pose proof (rows_small m (17 - Z.min level 10) inv 0 ch pcms _ ltac:(unfold m; lia) ltac:(lia) ltac:(unfold m; lia) Hch L0
    (first_ok_rec ch pcms _ Hch H3) ltac:(apply Forall_forall; intros st Hst; apply repeat_spec in Hst; subst; exact I) HQ) as B.
  rewrite firsts_new, Z2Nat.id in B by lia. fold (frames_of inv ch pcms) in B. rewrite total_samples_blocks in B. fold n in B.
  replace (17 - Z.min level 10 + 4) with (bits_most level) in B by (unfold bits_most; lia).
  pose proof (concat_width _ _ (frames_width inv ch pcms)) as LF. rewrite length_frames_of in LF.
  set (fs := concat (frames_of inv ch pcms)) in *. clearbody fs.
  destruct R as [Hi _ _ _ HB [HH _] _]. destruct HB as ([W _] & _ & HC & _ & HL). rewrite HC in W.
  destruct HH as (_ & (_ & _ & N & _) & (_ & _ & _ & V & _) & S1 & S2 & S3).
  rewrite (zlen_save c info Hi), S1, S2, S3, N, V, !zlen_map, !zlen_headers_of.
  assert (ZF : zlen fs = ch * calls) by (unfold calls, zlen; rewrite LF; lia). rewrite ZF.
  set (bits := zlen (flat_map fr_bits fs)) in *. assert (0 <= bits) by apply zlen_nonneg.
  assert (0 <= ch * calls) by (unfold calls; pose proof (zlen_nonneg pcms); nia).
  set (f := ch * calls) in *. set (b := bits_most level * n) in *. clearbody f bits b. clear - B W HL H H0 Hch.
  assert (K : 128 * (bits / 128) <= bits) by (apply Z.mul_div_le; lia).
  assert (K0 : 0 <= bits / 128) by (apply Z.div_pos; lia).
  pose proof (Z.div_mod (f + 1) 2 ltac:(lia)). pose proof (Z.mod_pos_bound (f + 1) 2 ltac:(lia)).
  pose proof (Z.div_mod (f + 63) 64 ltac:(lia)). pose proof (Z.mod_pos_bound (f + 63) 64 ltac:(lia)).
  lia.
Qed.
Print Assumptions C99_saved_size.
(** The command line tool. *)
Theorem C99_tool_size : forall p file level info t out,
  let ch := si_channels info in
  let n := ch * (zlen t / ch) in
  let k := ch * (1024 / ch) in
  let calls := (zlen t + k - 1) / k in
  readable p file info t -> 4 <= level -> wav_to_adhoc p file level = Ok (Some out) ->
  8 * zlen out <= bits_most level * n + 48 * ch + 133 * (ch * calls) + 1259.
Proof.
  intros p file level info t out ch n k calls HRd Hl H.
  assert (H0 : 0 <= level) by lia. destruct (tool_recording _ _ _ _ _ _ HRd H0 H) as (m & c & Hm & HR & E & ->). fold ch in HR, E.
  destruct HRd as (w & odd & _ & _ & _ & _ & Ht & (Hc1 & _) & Hc & Ht2). fold ch in Hc1, Hc, Ht2.
  destruct (chunk_pos ch ltac:(lia)) as [K1 K2]. change (chunk ch) with k in K1.
  assert (TB : total_blocks ch (pieces ch m t) = zlen t / ch).
  { assert (X : ch * total_blocks ch (pieces ch m t) = ch * (zlen t / ch)); [|nia].
    rewrite total_blocks_whole by lia. unfold pieces, chunk.
    rewrite (cut_whole ch (1024 / ch)) by (try lia; rewrite map_length; unfold zlen in *; lia).
    now rewrite whole_len, zlen_map by lia. }
  assert (NC : zlen (pieces ch m t) = calls).
  { unfold pieces. change (chunk ch) with k. rewrite cut_count by (try lia; rewrite map_length; unfold zlen in Hm; lia). now rewrite zlen_map. }
  pose proof (C99_saved_size p info level (pieces ch m t) c) as S. cbv zeta in S. fold ch in S. rewrite TB, NC in S.
  apply S; auto. apply pieces_unit; auto. lia.
Qed.
Print Assumptions C99_tool_size.
(** Mono and stereo, against the two bytes each sample takes in the WAV file, 203 bytes aside: at most 70.4 percent from level
    10 on, and never more than 95.4 percent from level 6 on. *)
Corollary C99_tool_percent : forall p file level info t out,
  readable p file info t -> 4 <= level -> si_channels info <= 2 -> wav_to_adhoc p file level = Ok (Some out) ->
  1600 * zlen out <= (100 * bits_most level + 26) * (2 * zlen t) + 324800.
Proof.
  intros p file level info t out HRd Hl H2 H. pose proof (C99_tool_size _ _ _ _ _ _ HRd Hl H) as S. cbv zeta in S.
  destruct HRd as (w & odd & _ & _ & _ & _ & Ht & (Hc1 & _) & Hc & Ht2). set (ch := si_channels info) in *.
  assert (Hb : 11 <= bits_most level <= 17) by (unfold bits_most; lia). set (b := bits_most level) in *. clearbody b.
  pose proof (Z.div_mod (zlen t) ch ltac:(lia)). pose proof (Z.mod_pos_bound (zlen t) ch ltac:(lia)).
  assert (ch = 1 \/ ch = 2) as [E|E] by lia; rewrite E in *; change (1 * (1024 / 1)) with 1024 in S; change (2 * (1024 / 2)) with 1024 in S;
    pose proof (Z.div_mod (zlen t + 1024 - 1) 1024 ltac:(lia)); pose proof (Z.mod_pos_bound (zlen t + 1024 - 1) 1024 ltac:(lia)); nia.
Qed.
Print Assumptions C99_tool_percent.

(** ** Not even the highest level always makes a smaller file *)
Definition saved_size (p : profile) (info : stream_info) (level : Z) (pcms : list (list f32)) : option Z :=
  match encode_all p (new_codec info level) pcms with Ok c => Some (zlen (ad_save c)) | _ => None end.
(** 100 samples at full scale take 206 bytes at level 0 and 222 at level 10. *)
Theorem C99_highest_level_refuted : ~ (forall p info pcms a b, recording_ok (si_channels info) pcms ->
  Forall (Forall (fun s => is_finite s = true /\ (Rabs (B2R s) <= 1)%R)) pcms ->
  saved_size p info 0 pcms = Some a -> saved_size p info 10 pcms = Some b -> b <= a).
Proof.
  intros H. specialize (H Debug (mkInfo 44100 1) [repeat (f32_of_Z 1) 100] 206 222).
  assert (HR : recording_ok 1 [repeat (f32_of_Z 1) 100]).
  { unfold recording_ok. cbn [concat]. rewrite app_nil_r. change (zlen (repeat (f32_of_Z 1) 100)) with 100.
    change (zlen [repeat (f32_of_Z 1) 100]) with 1. repeat split; try lia. repeat constructor. }
  assert (HU : Forall (Forall (fun s => is_finite s = true /\ (Rabs (B2R s) <= 1)%R)) [repeat (f32_of_Z 1) 100]).
  { constructor; [|constructor]. apply Forall_forall. intros s Hs. apply repeat_spec in Hs. subst.
    destruct (f32_of_Z_R 1 ltac:(lia)) as [F V]. split; [exact F|]. change (B2R (f32_of_Z 1)) with (val (f32_of_Z 1)). rewrite V. apply Rabs_le. lra. }
  specialize (H HR HU ltac:(vm_compute; reflexivity) ltac:(vm_compute; reflexivity)). lia.
Qed.
Print Assumptions C99_highest_level_refuted.

(** 60 samples at full scale, level 10: at most 262 bytes, 190 in fact. *)
Example C99_applies : let pcms := [repeat (f32_of_Z 1) 60] in
  recording_ok 1 pcms /\ Forall (Forall (fun s => is_finite s = true /\ (Rabs (B2R s) <= 1.0001)%R)) pcms /\
  saved_size Debug (mkInfo 44100 1) 10 pcms = Some 190 /\ (bits_most 10 * 60 + 48 * 1 + 133 * 1 + 1259) / 8 = 262.
Proof.
  cbv zeta. split.
  { unfold recording_ok. cbn [concat]. rewrite app_nil_r. change (zlen (repeat (f32_of_Z 1) 60)) with 60.
    change (zlen [repeat (f32_of_Z 1) 60]) with 1. repeat split; try lia. repeat constructor. }
  split; [|split; vm_compute; reflexivity].
  constructor; [|constructor]. apply Forall_forall. intros s Hs. apply repeat_spec in Hs. subst.
  destruct (f32_of_Z_R 1 ltac:(lia)) as [F V]. split; [exact F|]. change (B2R (f32_of_Z 1)) with (val (f32_of_Z 1)). rewrite V. apply Rabs_le. lra.
Qed.
(** The WAV file of [C50_applies], 201 samples, at level 10: at most 477 bytes, 270 in fact. *)
Example C99_tool_applies : readable Debug demo_file (mkInfo 44100 2) demo_track /\
  match wav_to_adhoc Debug demo_file 10 with
  | Ok (Some out) => zlen demo_track = 201 /\ zlen out = 270 /\ (bits_most 10 * 200 + 48 * 2 + 133 * 2 + 1259) / 8 = 477 | _ => False end.
Proof. split; [apply C50_applies|]. vm_compute. auto. Qed.
