(** * Property C66: how large saved files are *)
From Coq Require Import ZArith List Bool Lia.
From Verif Require Import Model.Base Model.F32 Model.Sample Model.BitStream Model.NibbleList Model.BitVec Model.Frame Model.Adhoc Model.Bincode
  Model.Wav Model.Cli Spec.Codec Spec.Recording Spec.Frames Spec.Files Spec.Wave
  Proofs.BaseFacts Proofs.BitStreamFacts Proofs.BitLog Proofs.Containers Proofs.Headers Proofs.FrameFacts Proofs.EncodeFacts Proofs.RoundTrip
  Proofs.FrameLaws Proofs.FileFacts Proofs.WavFacts Proofs.Chunks Proofs.Requantise Proofs.WavFile Proofs.CliFacts Properties.Demo Properties.CliProps.
Import ListNotations.
Open Scope Z_scope.

(** ** The least a frame takes *)
Lemma cost_low k ds : 1 <= k -> 3 * zlen ds <= cost k ds.
Proof.
  intros Hk. induction ds as [|d ds IH]; [reflexivity|]. rewrite cost_cons, zlen_cons. pose proof (cost_item k d Hk). lia.
Qed.
Lemma zlen_residuals t qs : zlen (residuals t qs) = zlen qs.
Proof. unfold zlen. now rewrite length_residuals. Qed.
Lemma make_frame_low st qs : (st = None -> 3 <= zlen qs) ->
  3 * zlen qs + (if st then 0 else 39) <= zlen (fr_bits (make_frame st qs)).
Proof.
  intros Hn. pose proof (make_frame_e st qs) as He. rewrite zlen_fr_bits by lia.
  pose proof (cost_low (fr_e (make_frame st qs)) (fr_res (make_frame st qs)) ltac:(lia)) as L.
  destruct st as [t|]; cbn [make_frame fr_raw fr_res fr_e] in *.
  - change (zlen (@nil Z)) with 0. rewrite zlen_residuals in L. lia.
  - specialize (Hn eq_refl). rewrite zlen_residuals, zlen_skipn in L. rewrite zlen_firstn. lia.
Qed.
Definition firsts (sts : list (option hist)) : Z := zlen (filter (fun o => match o with None => true | _ => false end) sts).
Lemma row_low sts n call : length sts = length call -> Forall (fun qs => zlen qs = n) call -> (In None sts -> 3 <= n) ->
  3 * n * zlen call + 39 * firsts sts <= zlen (flat_map fr_bits (make_row sts call)).
Proof.
  unfold make_row, firsts. revert call. induction sts as [|st sts IH]; intros [|qs call] HL HF H3; cbn [zipw flat_map filter]; try discriminate.
  - change (zlen (@nil bool)) with 0. change (zlen (@nil (list Z))) with 0. change (zlen (@nil (option hist))) with 0. lia.
  - inversion HF as [|? ? Hq HF']; subst. rewrite zlen_app, zlen_cons.
    specialize (IH call ltac:(cbn in HL; lia) HF' ltac:(intros; apply H3; right; auto)).
    pose proof (make_frame_low st qs) as B. destruct st as [t|].
    + specialize (B ltac:(discriminate)). lia.
    + specialize (B ltac:(intros; apply H3; left; auto)). rewrite zlen_cons. lia.
Qed.
Lemma no_firsts sts : ~ In None sts -> firsts sts = 0.
Proof.
  unfold firsts. induction sts as [|[t|] sts IH]; intros H; cbn [filter]; auto.
  - apply IH. intros X. apply H. now right.
  - exfalso. apply H. now left.
Qed.
Lemma rows_low inv base ch pcms sts : 0 < ch -> zlen sts = ch -> first_ok sts ch pcms ->
  3 * total_samples ch pcms + (match pcms with [] => 0 | _ => 39 * firsts sts end)
    <= zlen (flat_map fr_bits (concat (make_rows sts (quant_calls inv base ch pcms)))).
Proof.
  intros Hch. revert sts base; induction pcms as [|pcm pcms IH]; intros sts base Hs H3; cbn [quant_calls make_rows concat total_samples].
  - change (zlen (flat_map fr_bits [])) with 0. lia.
  - rewrite flat_map_app, zlen_app.
    assert (L : length sts = length (quant_call inv base ch pcm)) by (rewrite length_quant_call; unfold zlen in Hs; lia).
    pose proof (row_low sts (zlen pcm / ch) (quant_call inv base ch pcm) L) as B.
    assert (LC : zlen (quant_call inv base ch pcm) = ch) by (unfold zlen; rewrite length_quant_call; lia).
    rewrite LC in B.
    specialize (IH (next_sts sts (quant_call inv base ch pcm)) (base + Z.to_nat (ch * (zlen pcm / ch)))%nat).
    rewrite no_firsts in IH by apply next_sts_some.
    specialize (B ltac:(apply Forall_forall; intros qs Hq; apply in_map_iff in Hq; destruct Hq as (c & <- & _); now apply zlen_quant_channel) H3).
    specialize (IH ltac:(unfold zlen; rewrite length_next_sts; auto)
                   ltac:(destruct pcms; cbn; auto; intros X; now apply next_sts_some in X)).
    destruct pcms; nia.
Qed.
Lemma firsts_new n : firsts (repeat None n) = Z.of_nat n.
Proof. unfold firsts. induction n as [|n IH]; [reflexivity|]. cbn [repeat filter]. rewrite zlen_cons, IH. lia. Qed.
Lemma concat_width {A} (rows : list (list A)) n : Forall (fun row => length row = n) rows -> length (concat rows) = (n * length rows)%nat.
Proof. induction 1 as [|r rows H HF IH]; cbn [concat length]; [lia|]. rewrite app_length, IH. lia. Qed.

(** ** C66 *)
(** The saved file of a recording of [n] samples in [calls] encode calls, in bits.  Below: 3 bits for each sample, 39 more
    for each channel, 133 for each call and channel, 936 for the file.  Above: 18 for each sample, 48 for each channel,
    133 for each call and channel, 1259 for the file. *)
Theorem C66_saved_size : forall p info level pcms c,
  let ch := si_channels info in
  let n := ch * total_blocks ch pcms in
  let calls := zlen pcms in
  0 <= level -> recording_ok ch pcms -> pcms <> [] -> encode_all p (new_codec info level) pcms = Ok c ->
  3 * n + 39 * ch + 133 * (ch * calls) + 936 <= 8 * zlen (ad_save c) <= 18 * n + 48 * ch + 133 * (ch * calls) + 1259.
Proof.
  intros p info level pcms c ch n calls Hl HR Hne E. pose proof (encoded_safe p info level pcms c HR E) as HS.
  destruct (encode_recording p info level pcms HR HS) as (c1' & E' & _ & R & _).
  rewrite E in E'. injection E' as <-. clear E. fold ch in R. pose proof HR as (Hch & H3 & _).
  set (inv := ad_inv_scale (new_codec info level)) in *.
  assert (L0 : zlen (repeat (@None hist) (Z.to_nat ch)) = ch) by (rewrite zlen_repeat; lia).
  pose proof (rows_bits inv 0 ch pcms _ Hch L0 (first_ok_rec ch pcms _ Hch H3)) as B.
  pose proof (rows_low inv 0 ch pcms _ Hch L0 (first_ok_rec ch pcms _ Hch H3)) as B'.
  rewrite firsts_new, Z2Nat.id in B' by lia.
  fold (frames_of inv ch pcms) in B, B'. rewrite total_samples_blocks in B, B'. fold n in B, B'.
  pose proof (concat_width _ _ (frames_width inv ch pcms)) as LF. rewrite length_frames_of in LF.
  set (fs := concat (frames_of inv ch pcms)) in *. clearbody fs.
  destruct R as [Hi _ _ _ HB [HH _] _]. destruct HB as ([W _] & _ & HC & _ & HL). rewrite HC in W.
  destruct HH as (_ & (_ & _ & N & _) & (_ & _ & _ & V & _) & S1 & S2 & S3).
  rewrite (zlen_save c info Hi), S1, S2, S3, N, V, !zlen_map, !zlen_headers_of.
  assert (ZF : zlen fs = ch * calls) by (unfold calls, zlen; rewrite LF; lia). rewrite ZF.
  set (bits := zlen (flat_map fr_bits fs)) in *. assert (0 <= bits) by apply zlen_nonneg.
  assert (0 <= ch * calls) by (unfold calls; pose proof (zlen_nonneg pcms); nia).
  set (f := ch * calls) in *. clearbody f bits n. clear - B B' W HL Hne H H0 Hch.
  assert (B2 : bits <= 18 * n + 48 * ch) by (destruct (existsb _ _); lia).
  assert (B3 : 3 * n + 39 * ch <= bits) by (destruct pcms; [now destruct Hne|lia]).
  assert (K : 128 * (bits / 128) <= bits) by (apply Z.mul_div_le; lia).
  assert (K0 : 0 <= bits / 128) by (apply Z.div_pos; lia).
  pose proof (Z.div_mod (f + 1) 2 ltac:(lia)). pose proof (Z.mod_pos_bound (f + 1) 2 ltac:(lia)).
  pose proof (Z.div_mod (f + 63) 64 ltac:(lia)). pose proof (Z.mod_pos_bound (f + 63) 64 ltac:(lia)).
  lia.
Qed.
Print Assumptions C66_saved_size.

(** ** The command line tool *)
Lemma cut_count {A} k : 1 <= k -> forall fuel (l : list A), (length l <= fuel)%nat -> zlen (cut fuel (Z.to_nat k) l) = (zlen l + k - 1) / k.
Proof.
  intros Hk. induction fuel as [|fuel IH]; intros l Hl.
  - destruct l; [|cbn in Hl; lia]. cbn [cut]. change (zlen (@nil A)) with 0. symmetry. apply Z.div_small. change (zlen (@nil (list A))) with 0. lia.
  - cbn [cut]. destruct l as [|x l].
    + change (zlen (@nil A)) with 0. symmetry. change (zlen (@nil (list A))) with 0. apply Z.div_small. lia.
    + rewrite zlen_cons, IH by (rewrite skipn_length; cbn [length] in *; lia). rewrite zlen_skipn.
      set (m := zlen (x :: l)). assert (1 <= m) by (unfold m; rewrite zlen_cons; pose proof (zlen_nonneg l); lia).
      rewrite Z2Nat.id by lia. destruct (Z.le_gt_cases m k).
      * replace (Z.max 0 (m - k)) with 0 by lia. replace (m + k - 1) with ((m - 1) + 1 * k) by lia. rewrite Z.div_add by lia.
        rewrite !Z.div_small by lia. lia.
      * replace (Z.max 0 (m - k)) with (m - k) by lia. replace (m + k - 1) with ((m - k + k - 1) + 1 * k) by lia. rewrite Z.div_add by lia. lia.
Qed.
Lemma tool_recording p file level info t out : readable p file info t -> 0 <= level -> wav_to_adhoc p file level = Ok (Some out) ->
  exists n c, zlen t <= Z.of_nat n /\ recording_ok (si_channels info) (pieces (si_channels info) n t) /\
    encode_all p (new_codec info level) (pieces (si_channels info) n t) = Ok c /\ out = ad_save c.
Proof.
  intros (w & odd & EL & EI & EP & Ho & Ht & Hf & Hc & Hl) Hlv H. pose proof Hf as (Hc1 & Hr & Hrc).
  pose proof (load_cursor _ _ _ EL) as E0. set (ch := si_channels info) in *.
  set (n := length (wav_pcm w)).
  assert (Hn : zlen t <= Z.of_nat n).
  { subst n. rewrite EP, app_length. pose proof (zlen_pcm t). unfold zlen in *. lia. }
  destruct (cut_recording ch (map restore t) (S (S n))) as [HR HG]; [lia|rewrite zlen_map; lia|rewrite zlen_map; lia|].
  change (cut (S (S n)) (Z.to_nat (chunk ch)) (map restore t)) with (pieces ch n t) in HR, HG.
  unfold wav_to_adhoc in H. rewrite EL in H. cbn [bind] in H. destruct w as [wi wp wc]. cbn [wav_info wav_pcm wav_cursor] in *. subst wi wc wp.
  rewrite cli_codec, (wav_loop p info t odd) in H by (auto; fold ch; try lia; reflexivity).
  fold ch in H. fold n in H. cbn [Z.to_nat skipn] in H. change (cut (S (S n)) (Z.to_nat (chunk ch)) (map restore t)) with (pieces ch n t) in H.
  exists n. destruct (encode_all p (new_codec info level) (pieces ch n t)) as [c| |]; cbn [bind] in H; try discriminate H.
  injection H as <-. exists c. auto.
Qed.
(** The .adhoc file the tool makes of a track of [t] samples.  The tool hands the codec [1024 / channels] blocks a time. *)
Theorem C66_tool_size : forall p file level info t out,
  let ch := si_channels info in
  let n := ch * (zlen t / ch) in
  let k := ch * (1024 / ch) in
  let calls := (zlen t + k - 1) / k in
  readable p file info t -> 0 <= level -> wav_to_adhoc p file level = Ok (Some out) ->
  3 * n + 39 * ch + 133 * (ch * calls) + 936 <= 8 * zlen out <= 18 * n + 48 * ch + 133 * (ch * calls) + 1259.
Proof.
  intros p file level info t out ch n k calls HRd Hl H.
  destruct (tool_recording _ _ _ _ _ _ HRd Hl H) as (m & c & Hm & HR & E & ->). fold ch in HR, E.
  destruct HRd as (w & odd & _ & _ & _ & _ & Ht & (Hc1 & _) & Hc & Ht2). fold ch in Hc1, Hc, Ht2.
  destruct (chunk_pos ch ltac:(lia)) as [K1 K2]. change (chunk ch) with k in K1.
  assert (TB : total_blocks ch (pieces ch m t) = zlen t / ch).
  { assert (X : ch * total_blocks ch (pieces ch m t) = ch * (zlen t / ch)); [|nia].
    rewrite total_blocks_whole by lia. unfold pieces, chunk.
    rewrite (cut_whole ch (1024 / ch)) by (try lia; rewrite map_length; unfold zlen in *; lia).
    now rewrite whole_len, zlen_map by lia. }
  assert (NC : zlen (pieces ch m t) = calls).
  { unfold pieces. change (chunk ch) with k. rewrite cut_count by (try lia; rewrite map_length; unfold zlen in Hm; lia). now rewrite zlen_map. }
  pose proof (C66_saved_size p info level (pieces ch m t) c) as S. cbv zeta in S. fold ch in S. rewrite TB, NC in S.
  apply S; auto. intros X. rewrite X in NC. change (zlen (@nil (list f32))) with 0 in NC.
  assert (1 <= calls) by (unfold calls; apply Z.div_le_lower_bound; lia). lia.
Qed.
Print Assumptions C66_tool_size.
(** Mono and stereo, against the two bytes each sample takes in the WAV file: at least 18.75 percent, at most
    114.5 percent and 203 bytes. *)
Corollary C66_tool_percent : forall p file level info t out,
  readable p file info t -> 0 <= level -> si_channels info <= 2 -> wav_to_adhoc p file level = Ok (Some out) ->
  1875 * (2 * zlen t) <= 10000 * zlen out <= 11450 * (2 * zlen t) + 2030000.
Proof.
  intros p file level info t out HRd Hl H2 H. pose proof (C66_tool_size _ _ _ _ _ _ HRd Hl H) as S. cbv zeta in S.
  destruct HRd as (w & odd & _ & _ & _ & _ & Ht & (Hc1 & _) & Hc & Ht2). set (ch := si_channels info) in *.
  pose proof (Z.div_mod (zlen t) ch ltac:(lia)). pose proof (Z.mod_pos_bound (zlen t) ch ltac:(lia)).
  assert (ch = 1 \/ ch = 2) as [E|E] by lia; rewrite E in *; change (1 * (1024 / 1)) with 1024 in S; change (2 * (1024 / 2)) with 1024 in S;
    pose proof (Z.div_mod (zlen t + 1024 - 1) 1024 ltac:(lia)); pose proof (Z.mod_pos_bound (zlen t + 1024 - 1) 1024 ltac:(lia)); lia.
Qed.
Print Assumptions C66_tool_percent.

(** The demonstration, level 4: between 2126 and 2707 bits, 2440 in fact. *)
Example C66_applies : recording_ok 2 demo /\ demo <> [] /\
  (let n := 2 * total_blocks 2 demo in let calls := zlen demo in
   3 * n + 39 * 2 + 133 * (2 * calls) + 936 = 2126 /\ 18 * n + 48 * 2 + 133 * (2 * calls) + 1259 = 2707) /\
  match encode_all Debug (new_codec stereo 4) demo with Ok c => 8 * zlen (ad_save c) = 2440 | _ => False end.
Proof. split; [apply demo_ok|]. split; [discriminate|]. split; vm_compute; auto. Qed.
(** The WAV file of [C50_applies]: 201 samples, so 76 to 663 bytes; it becomes 270 bytes. *)
Example C66_tool_applies : readable Debug demo_file (mkInfo 44100 2) demo_track /\
  match wav_to_adhoc Debug demo_file 0 with Ok (Some out) => zlen demo_track = 201 /\ zlen out = 270 | _ => False end.
Proof. split; [apply C50_applies|]. vm_compute. auto. Qed.
