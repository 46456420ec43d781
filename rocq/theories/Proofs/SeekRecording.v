(** * Seeking in a recording *)
From Coq Require Import ZArith List Bool Lia.
From Verif Require Import Model.Base Model.F32 Model.Noise Model.Sample Model.BitStream
  Model.CircularStack Model.Frame Model.Adhoc Spec.Bits Spec.Codec Spec.Recording Spec.Frames Spec.Seeking Spec.Files
  Proofs.BaseFacts Proofs.BitStreamFacts Proofs.BitLog Proofs.Rice Proofs.Containers Proofs.Headers
  Proofs.StreamOpsFacts Proofs.FrameFacts Proofs.EncodeFacts Proofs.DecodeFacts Proofs.FloatFacts Proofs.Predict Proofs.RoundTrip
  Proofs.FrameLaws Proofs.AnyState Proofs.TypeFacts Proofs.Memory Proofs.SeekFacts.
Import ListNotations.
Open Scope Z_scope.

(** ** The rows of a recording *)
Lemma make_rows_marked sts calls :
  forall done row todo, make_rows sts calls = done ++ row :: todo ->
    (Forall (fun st => st <> None) sts -> Forall (fun f => fr_init f = false) row) /\
    (Forall (fun st => st = None) sts -> Forall (fun f => fr_init f = match done with [] => true | _ => false end) row).
Proof.
  revert sts; induction calls as [|call calls IH]; intros sts done row todo H; cbn [make_rows] in H.
  { destruct done; discriminate. }
  destruct done as [|r done]; cbn [app] in H.
  - injection H as <- _. unfold make_row. split; intros HF; clear IH; revert call; induction HF as [|st sts H HF IH]; intros [|q call]; cbn [zipw]; constructor; auto.
    + destruct st; [reflexivity|congruence].
    + subst st. reflexivity.
  - injection H as _ H. destruct (IH _ _ _ _ H) as [I1 _].
    assert (HS : Forall (fun st => st <> None) (next_sts sts call)).
    { unfold next_sts. clear. revert call; induction sts; intros [|q call]; cbn [zipw]; constructor; auto. discriminate. }
    split; intros _; auto.
Qed.
Lemma frames_marked inv ch pcms : marked (frames_of inv ch pcms).
Proof.
  intros done row todo H. apply (make_rows_marked _ _ _ _ _ H). apply Forall_forall. intros x Hx. now apply repeat_spec in Hx.
Qed.

Lemma chan_frames_skip i : forall st qss, (i < length qss)%nat ->
  let st' := match i with O => st | _ => Some (next_hist st (concat (firstn i qss))) end in
  nth i (chan_frames st qss) (make_frame None []) = make_frame st' (nth i qss []) /\
  skipn i (chan_frames st qss) = chan_frames st' (skipn i qss).
Proof.
  induction i as [|i IH]; intros st [|qs qss] Hi; cbn [length] in Hi; try lia; cbn [chan_frames nth skipn]; auto.
  destruct (IH (Some (next_hist st qs)) qss ltac:(lia)) as [I1 I2]. cbn [firstn concat].
  assert (E : match i with O => Some (next_hist st qs) | _ => Some (next_hist (Some (next_hist st qs)) (concat (firstn i qss))) end
              = Some (next_hist st (qs ++ concat (firstn i qss)))).
  { destruct i; [cbn [firstn concat]; now rewrite app_nil_r|]. destruct st; cbn [next_hist]; now rewrite fold_left_app. }
  cbv zeta in I1, I2. rewrite E in I1, I2. split; auto.
Qed.

Lemma walk_start ch t pcms : 0 < ch -> forall rows sk,
  Forall2 (fun row pcm => row_n row = zlen pcm / ch) rows pcms -> sk <= t ->
  sum_n (firstn (fst (walk t sk rows)) rows) = call_start ch (t - sk) pcms.
Proof.
  intros Hch. induction pcms as [|pcm pcms IH]; intros rows sk HF Ht; inversion HF as [|row ? rows' ? E F]; subst;
    cbn [walk call_start fst firstn]; auto.
  destruct (Z.ltb_spec sk t) as [L|L].
  - rewrite <- E. destruct (Z.leb_spec t (sk + row_n row)), (Z.leb_spec (t - sk) (row_n row)); try lia; cbn [fst firstn]; auto.
    unfold sum_n. cbn [map fold_right]. fold (sum_n (firstn (fst (walk t (sk + row_n row) rows')) rows')).
    rewrite (IH rows' (sk + row_n row) F) by lia. do 2 f_equal. lia.
  - cbn [fst firstn]. pose proof (zlen_nonneg pcm). pose proof (Z.div_pos (zlen pcm) ch ltac:(lia) Hch).
    destruct (Z.leb_spec (t - sk) (zlen pcm / ch)); [reflexivity|lia].
Qed.

Lemma sum_total ch rows pcms : Forall2 (fun row pcm => row_n row = zlen pcm / ch) rows pcms -> sum_n rows = total_blocks ch pcms.
Proof.
  unfold sum_n, total_blocks. intros F. induction F as [|row pcm rows pcms Hf F IH]; [reflexivity|]. cbn [map fold_right]. now rewrite Hf, IH.
Qed.

(** History after the first [n] samples of a signal. *)
Lemma history_at qs n t : (3 <= n <= length qs)%nat ->
  fold_left shift (firstn n qs) t = (nth (n - 3) qs 0, nth (n - 2) qs 0, nth (n - 1) qs 0).
Proof.
  intros Hn. destruct (fold_shift_last (firstn n qs) ltac:(rewrite firstn_length; lia) t) as (pre & a & b & c & E & ->).
  assert (L : (length pre + 3 = n)%nat).
  { apply (f_equal (@length Z)) in E. rewrite firstn_length, app_length in E. cbn [length] in E. lia. }
  assert (N : forall i, (i < n)%nat -> nth i qs 0 = nth i (pre ++ [a; b; c]) 0).
  { intros i Hi. rewrite <- E. rewrite <- (firstn_skipn n qs) at 1. rewrite app_nth1; auto. rewrite firstn_length. lia. }
  rewrite !N by lia. rewrite !app_nth2 by lia.
  replace (n - 3 - length pre)%nat with 0%nat by lia. replace (n - 2 - length pre)%nat with 1%nat by lia.
  replace (n - 1 - length pre)%nat with 2%nat by lia. reflexivity.
Qed.

Lemma resumed_tame k qs : Forall i16 qs -> tame qs -> k = 0 \/ 3 <= k <= zlen qs -> resumed k qs = skipn (Z.to_nat k) qs.
Proof.
  intros H16 HT [->|Hk]; unfold resumed.
  - change (0 =? 0) with true. cbv iota. now apply lossy_tame.
  - destruct (Z.eqb_spec k 0) as [X|X]; [lia|]. clear X. set (n := Z.to_nat k). assert (Hn : (3 <= n <= length qs)%nat) by (unfold zlen in *; lia).
    rewrite <- (history_at qs n (0, 0, 0) Hn). cbv zeta. apply reconstruct_exact.
    + rewrite <- (firstn_skipn n qs) in H16. apply Forall_app in H16. tauto.
    + pose proof (tame_diffs qs (fun d => -32767 <= d <= 32766) HT) as D. unfold frame_diffs in D.
      rewrite (first3_hist (firstn n qs)) by (rewrite zlen_firstn; unfold zlen; lia).
      assert (N : forall i, (i < 3)%nat -> nth i (firstn n qs) 0 = nth i qs 0).
      { intros i Hi. rewrite <- (firstn_skipn n qs) at 2. rewrite app_nth1; auto. rewrite firstn_length. lia. }
      rewrite !N by lia.
      assert (ES : skipn 3 qs = skipn 3 (firstn n qs) ++ skipn n qs).
      { rewrite <- (firstn_skipn n qs) at 1. rewrite skipn_app. rewrite firstn_length.
        replace (3 - Nat.min n (length qs))%nat with 0%nat by lia. reflexivity. }
      rewrite ES, diffs_app in D. apply Forall_app in D. tauto.
Qed.
Lemma length_resumed k qs : k = 0 \/ 3 <= k <= zlen qs -> zlen (resumed k qs) = zlen qs - k.
Proof.
  intros H. unfold resumed. destruct (Z.eqb_spec k 0) as [->|].
  - unfold lossy. rewrite zlen_app. unfold zlen. rewrite length_reconstruct, length_residuals, firstn_length, skipn_length. lia.
  - unfold zlen. rewrite length_reconstruct, length_residuals, skipn_length. unfold zlen in H. lia.
Qed.

(** ** What each channel outputs after a seek *)
Lemma seek_output p inv ch pcms i :
  recording_ok ch pcms -> rows_ok p (repeat None (Z.to_nat ch)) (frames_of inv ch pcms) -> (i < length pcms)%nat ->
  let rows := frames_of inv ch pcms in
  let s := block_of_row rows i in
  (s = 0 \/ 3 <= s <= total_blocks ch pcms) /\
  remaining (map restored (nth i rows [])) (skipn i rows) =
    map (fun c => map restore_in_range (resumed s (quant_signal inv ch pcms c))) (range ch).
Proof.
  intros HR HO Hi rows s. pose proof HR as (Hch & H3 & _). pose proof (frames_sizes inv ch pcms HR) as F. fold rows in F.
  assert (Lr : length rows = length pcms) by (eapply Forall2_len; eauto).
  assert (Hs : s = 0 /\ i = 0%nat \/ 3 <= s <= total_blocks ch pcms /\ i <> 0%nat).
  { subst s. unfold block_of_row. destruct i as [|i]; [left; auto|]. right. split; [|discriminate].
    rewrite <- (sum_total ch rows pcms F). destruct rows as [|r rows']; [cbn in Lr; lia|].
    pose proof (sum_n_nonneg (firstn i rows')). pose proof (sum_n_nonneg (skipn i rows')).
    assert (sum_n rows' = sum_n (firstn i rows') + sum_n (skipn i rows')) by (rewrite <- sum_n_app, firstn_skipn; reflexivity).
    assert (3 <= row_n r). { inversion F; subst. rewrite H5. apply Z.div_le_lower_bound; lia. }
    unfold sum_n in *. cbn [firstn map fold_right]. lia. }
  split; [tauto|].
  assert (Er : rows = firstn i rows ++ nth i rows [] :: skipn (S i) rows).
  { rewrite <- (firstn_skipn i rows) at 1. f_equal. apply skipn_nth_cons. lia. }
  assert (Lrow : length (nth i rows []) = Z.to_nat ch).
  { pose proof (rows_ok_lens p rows _ HO) as X. rewrite repeat_length in X. rewrite Forall_forall in X. apply X. apply nth_In. lia. }
  assert (HOr : rows_ok p (map fst (map restored (nth i rows []))) (skipn i rows)).
  { rewrite (skipn_nth_cons rows i []) by lia. apply (restored_shape p (Z.to_nat ch) (firstn i rows)); rewrite <- Er; auto.
    apply frames_marked. }
  apply (list_ext []).
  { rewrite (length_remaining p) by auto. now rewrite !map_length, length_range. }
  intros j Hj. rewrite (length_remaining p), map_length in Hj by auto. rewrite Lrow in Hj.
  rewrite (remaining_column p) by (auto; rewrite map_length; lia).
  rewrite (nth_indep _ (None, []) (restored (make_frame None []))) by (rewrite map_length; lia).
  rewrite (map_nth restored). cbn [restored snd fst app].
  rewrite (nth_indep _ [] (map restore_in_range (resumed s (quant_signal inv ch pcms 0)))) by (rewrite map_length, length_range; auto).
  rewrite (map_nth (fun c => map restore_in_range (resumed s (quant_signal inv ch pcms c)))).
  replace (nth j (range ch) 0) with (Z.of_nat j) by (rewrite <- (Nat2Z.id j) at 2; rewrite nth_range by lia; reflexivity).
  rewrite <- skipn_map.
  pose proof (frames_column inv ch pcms j Hj) as EC. fold rows in EC. rewrite EC.
  pose proof (chan_calls_facts inv 0 ch pcms j Hch Hj) as FC.
  pose proof (first_call_3 inv ch pcms j Hch Hj H3) as F3.
  pose proof (quant_signal_range inv ch pcms (Z.of_nat j)) as QR.
  rewrite quant_signal_calls, Nat2Z.id in * by lia.
  set (qss := chan_calls inv 0 ch pcms j) in *.
  assert (Lq : length qss = length pcms) by (eapply Forall2_len; eauto). clearbody qss rows.
  destruct (chan_frames_skip i None qss ltac:(lia)) as [C1 C2]. cbv zeta in C1, C2. rewrite C2.
  assert (EN : nth j (nth i rows []) (make_frame None []) = nth i (chan_frames None qss) (make_frame None [])).
  { rewrite <- EC. pose proof (map_nth (fun row => nth j row (make_frame None [])) rows [] i) as X. cbv beta in X.
    rewrite <- X. apply nth_indep. rewrite map_length. lia. }
  rewrite EN, C1. destruct Hs as [[-> ->]|[Hs Hi0]].
  - cbn [skipn make_frame fr_init]. unfold resumed. change (0 =? 0) with true. cbv iota.
    destruct qss as [|qs qss]; [reflexivity|].
    rewrite chan_floats_none by auto. unfold lossy. rewrite map_app. f_equal.
    apply map_ext_in. intros q Hq. symmetry. apply clamp_normalize.
    rewrite Forall_forall in QR. apply QR. rewrite <- (firstn_skipn 3 (concat (qs :: qss))).
    apply in_or_app. now left.
  - destruct i as [|i]; [congruence|]. cbn [make_frame fr_init fr_hist next_hist].
    rewrite chan_floats_some. unfold resumed. destruct (Z.eqb_spec s 0); [lia|].
    assert (ES : Z.to_nat s = length (concat (firstn (S i) qss))).
    { assert (X : forall k, sum_n (firstn k rows) = zlen (concat (firstn k qss))).
      { clear -F FC. revert qss FC. induction F as [|row pcm rows pcms Hf F IH]; intros qss FC k; inversion FC as [|q ? qs ? [_ Q] FC']; subst.
        - now rewrite !firstn_nil.
        - destruct k; [reflexivity|]. cbn [firstn concat].
          rewrite zlen_app, <- (IH qs FC' k). unfold sum_n. cbn [map fold_right]. lia. }
      subst s. unfold block_of_row. rewrite X. apply to_nat_zlen. }
    assert (EF : firstn (Z.to_nat s) (concat qss) = concat (firstn (S i) qss)).
    { rewrite ES. rewrite <- (firstn_skipn (S i) qss) at 2. rewrite concat_app, firstn_app, Nat.sub_diag, firstn_all. cbn [firstn]. apply app_nil_r. }
    assert (EK : skipn (Z.to_nat s) (concat qss) = concat (skipn (S i) qss)).
    { rewrite ES. rewrite <- (firstn_skipn (S i) qss) at 2. rewrite concat_app, skipn_app, Nat.sub_diag, skipn_all. reflexivity. }
    cbv zeta. rewrite <- (history_at (concat qss) (Z.to_nat s) (0, 0, 0)).
    + rewrite EF, EK. reflexivity.
    + split; [lia|]. pose proof (f_equal (@length Z) EF) as X. rewrite firstn_length, <- ES in X. lia.
Qed.

(** ** Codecs holding a recording, in any playback state *)
Record holding (p : profile) (c : adhoc) (info : stream_info) (level : Z) (pcms : list (list f32)) (m : list Z) : Prop := {
  hd_info : as_info (ad_stream c) = Some info;
  hd_num : zlen (ad_channels c) = si_channels info;
  hd_any : Forall (fun fc => hist_any (fc_history fc)) (ad_channels c);
  hd_chunks : chunks_ok (bs_binary (as_stream (ad_stream c)));
  hd_ext : ext m (bs_binary (as_stream (ad_stream c)));
  hd_heads : fhs_rep (ad_headers c) (headers_of 0 (concat (frames_of (inv_gain level) (si_channels info) pcms)));
  hd_rec : recorded p info m (frames_of (inv_gain level) (si_channels info) pcms);
  hd_scale : ad_scale c = gain level }.

Lemma encode_all_session p pcms c : encode_all p c pcms = session p (map Feed pcms) c.
Proof. unfold encode_all, session. revert c; induction pcms as [|pcm pcms IH]; intros c; cbn [foldM map act]; auto. destruct (ad_encode p c pcm) as [[? ?]| |]; cbn [bind]; auto. Qed.
Lemma play_session p ops c : play_all p ops c = session p (map Do ops) c.
Proof. unfold play_all, session. revert c; induction ops as [|op ops IH]; intros c; cbn [foldM map act]; auto. destruct (play p c op); cbn [bind]; auto. Qed.

Lemma recording_holding p info level pcms c1 ops c :
  0 <= level -> info_fits info -> recording_ok (si_channels info) pcms ->
  encode_all p (new_codec info level) pcms = Ok c1 -> play_all p ops c1 = Ok c ->
  exists m, holding p c info level pcms m.
Proof.
  intros Hlv [I1 I2] HR E HP. pose proof (encoded_safe p info level pcms c1 HR E) as HS.
  destruct (encode_recording p info level pcms HR HS) as (c1' & E' & S & R & HM & HO).
  rewrite E in E'. injection E' as <-.
  pose proof (recording_recorded p info level pcms c1 HR HM HO) as HRec.
  rewrite (new_codec_inv info level Hlv) in *.
  exists (bs_binary (as_stream (ad_stream c1))).
  pose proof (play_same p ops c1 c HP) as (ST & Si & _ & Sc & _).
  pose proof (play_kept p ops c1 c HP) as HK.
  rewrite encode_all_session in E. rewrite play_session in HP.
  pose proof (session_typed p _ _ _ (session_typed p _ _ _ (new_typed info level I1 I2) E) HP) as [(T1 & (T2 & _) & _) _ _].
  assert (G : good info c).
  { eapply session_good; [|exact HP]. eapply session_good; [|exact E]. apply new_good. apply I2. }
  destruct G as (G1 & G2 & _). constructor; auto.
  - eapply Forall_impl; [|exact T1]. intros fc [_ X]. exact X.
  - now apply kept_ext.
  - destruct R as [_ _ _ _ _ [HH _] _]. rewrite ST. exact HH.
  - rewrite Sc. destruct S as (_ & -> & _). now apply new_codec_scale.
Qed.

(** Rewound, it plays from the start. *)
Lemma holding_playing p c info level pcms m : 0 <= level -> recording_ok (si_channels info) pcms ->
  holding p c info level pcms m ->
  playing p (ad_init c) info level pcms 0 (Z.to_nat (audible (si_channels info) 0 pcms)).
Proof.
  intros Hlv HR [H1 H2 H3 H4 H5 H6 H7 H8]. set (ch := si_channels info) in *.
  pose proof (frames_reach (inv_gain level) ch pcms 0 HR) as HRe.
  pose proof (init_decoding p c info m _ H1 H2 H3 H4 H5 H6 H7) as HD. fold ch in HD.
  destruct HR as (Hch & HF & _). pose proof H7 as (_ & HO & _). fold ch in HO.
  destruct (output_len p (inv_gain level) ch pcms Hch HF HO) as [L HL].
  exists m, (frames_of (inv_gain level) ch pcms). fold ch. rewrite map_skipn_0. rewrite HRe in HD.
  split; [exact HD|]. split; [exact H7|]. split; [|split; [exact HL|split; [exact HRe|split]]].
  - apply (output_lossy p); auto.
  - apply total_blocks_nonneg; auto.
  - exact H8.
Qed.
