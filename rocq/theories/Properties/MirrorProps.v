(** * Property C101: recording a signal with its polarity inverted *)
From Coq Require Import ZArith List Bool Lia Reals Lra.
From Flocq Require Import Core BinarySingleNaN.
From Verif Require Import Model.Base Model.F32 Model.Noise Model.Sample Model.BitStream Model.NibbleList Model.BitVec Model.Frame Model.Adhoc Model.Bincode
  Spec.Codec Spec.Recording Proofs.BaseFacts Proofs.FloatFacts Proofs.BitStreamFacts Proofs.BitLog Proofs.Containers Proofs.Headers Proofs.FrameFacts
  Proofs.EncodeFacts Proofs.RoundTrip Proofs.SignalFacts Proofs.FileFacts Proofs.Mirror Properties.Demo Properties.RoundTripProps Properties.LevelProps Properties.SizeProps.
Import ListNotations.
Open Scope Z_scope.

(** ** Specification *)
(** The signal with its polarity inverted: [-x] for every sample. *)
Definition inverted (pcms : list (list f32)) : list (list f32) := map (map Bopp) pcms.
(** No prediction error of a channel needs more than the range of residuals that is there in both directions. *)
Definition calm (qs : list Z) : Prop :=
  forall t, (3 <= t < length qs)%nat ->
    Z.abs (nth t qs 0 - predict (nth (t - 3) qs 0) (nth (t - 2) qs 0) (nth (t - 1) qs 0)) <= 32766.
(** [y] is minus [x]. *)
Definition minus (x y : f32) : Prop := is_finite x = true /\ is_finite y = true /\ B2R y = (- B2R x)%R.

(** ** Quantised signals *)
Lemma quantise_flip x x' : flipped x x' -> quantise x' = - quantise x.
Proof. exact (truncate_flip x x'). Qed.
Lemma nth_flip pcm i : flipped (nth i pcm f0) (nth i (map Bopp pcm) f0).
Proof.
  destruct (Nat.lt_ge_cases i (length pcm)) as [H|H].
  - rewrite (nth_indep (map Bopp pcm) f0 (Bopp f0)) by (rewrite map_length; exact H). rewrite map_nth. apply Bopp_flip.
  - rewrite !nth_overflow by (rewrite ?map_length; exact H). reflexivity.
Qed.
Lemma quant_channel_flip base ch pcm c : quant_channel (inv_gain 0) base ch (map Bopp pcm) c = map Z.opp (quant_channel (inv_gain 0) base ch pcm c).
Proof.
  unfold quant_channel. rewrite zlen_map, map_map. apply map_ext. intros k. unfold preprocessed.
  rewrite !quantise_level0 by apply noise_small. apply quantise_flip, nth_flip.
Qed.
Lemma quant_calls_flip ch pcms : forall base,
  quant_calls (inv_gain 0) base ch (inverted pcms) = map (map (map Z.opp)) (quant_calls (inv_gain 0) base ch pcms).
Proof.
  unfold inverted. induction pcms as [|pcm pcms IH]; intros base; cbn [map quant_calls]; [reflexivity|]. rewrite zlen_map, IH. f_equal.
  unfold quant_call. rewrite map_map. apply map_ext. intros c. apply quant_channel_flip.
Qed.
Lemma quant_signal_flip ch pcms c : quant_signal (inv_gain 0) ch (inverted pcms) c = map Z.opp (quant_signal (inv_gain 0) ch pcms c).
Proof.
  unfold quant_signal. rewrite quant_calls_flip. generalize (quant_calls (inv_gain 0) 0 ch pcms). intros calls.
  induction calls as [|call calls IH]; cbn [map flat_map]; [reflexivity|]. rewrite map_app, IH. f_equal. exact (map_nth (map Z.opp) call [] (Z.to_nat c)).
Qed.
Lemma nth_opp l i : nth i (map Z.opp l) 0 = - nth i l 0.
Proof. exact (map_nth Z.opp l 0 i). Qed.
Lemma calm_tame qs : calm qs -> tame qs /\ tame (map Z.opp qs).
Proof.
  intros H. split; intros t Ht; rewrite ?map_length in Ht; specialize (H t Ht); rewrite ?nth_opp, ?predict_flip; lia.
Qed.

(** ** Frames *)
Definition opp3 (t : hist) : hist := let '(a, b, c) := t in (- a, - b, - c).
Lemma diffs_flip qs : forall t, diffs (opp3 t) (map Z.opp qs) = map Z.opp (diffs t qs).
Proof.
  induction qs as [|q qs IH]; intros [[a b] c]; cbn [map diffs]; [reflexivity|]. specialize (IH (b, c, q)).
  cbn [opp3 shift pred_of] in *. rewrite predict_flip, IH. f_equal. lia.
Qed.
Lemma hist_flip qs : forall t, fold_left shift (map Z.opp qs) (opp3 t) = opp3 (fold_left shift qs t).
Proof. induction qs as [|q qs IH]; intros [[a b] c]; cbn [map fold_left]; [reflexivity|]. exact (IH (b, c, q)). Qed.
Lemma cost_flip k ds : cost k (map Z.opp ds) = cost k ds.
Proof. unfold cost. rewrite map_map. f_equal. apply map_ext. intros d. now rewrite Z.abs_opp. Qed.
Lemma best_flip ds : best_exponent (map Z.opp ds) = best_exponent ds.
Proof. unfold best_exponent. cbn [fold_left]. now rewrite !cost_flip. Qed.
Lemma limit_flip k d : 1 <= k -> Z.abs (limit (- d)) / 2 ^ k = Z.abs (limit d) / 2 ^ k.
Proof.
  intros Hk. assert (E : 32766 / 2 ^ k = 32767 / 2 ^ k).
  { replace k with (1 + (k - 1)) by lia. rewrite Z.pow_add_r by lia. change (2 ^ 1) with 2. assert (0 < 2 ^ (k - 1)) by (apply Z.pow_pos_nonneg; lia).
    rewrite <- !Z.div_div by lia. reflexivity. }
  unfold limit. assert (C : Z.abs d <= 32766 \/ 32767 <= d \/ d <= -32767) by lia. destruct C as [C|[C|C]].
  - replace (Z.max (-32767) (Z.min 32766 (- d))) with (- d) by lia. replace (Z.max (-32767) (Z.min 32766 d)) with d by lia. now rewrite Z.abs_opp.
  - replace (Z.max (-32767) (Z.min 32766 (- d))) with (-32767) by lia. replace (Z.max (-32767) (Z.min 32766 d)) with 32766 by lia. symmetry. exact E.
  - replace (Z.max (-32767) (Z.min 32766 (- d))) with 32766 by lia. replace (Z.max (-32767) (Z.min 32766 d)) with (-32767) by lia. exact E.
Qed.
Lemma cost_limit_flip k ds : 1 <= k -> cost k (map limit (map Z.opp ds)) = cost k (map limit ds).
Proof. intros Hk. unfold cost. rewrite !map_map. f_equal. apply map_ext. intros d. now rewrite limit_flip. Qed.
(** Frames with the same exponent and as many bits. *)
Definition alike (f g : frame) : Prop := fr_e f = fr_e g /\ zlen (fr_bits f) = zlen (fr_bits g) /\ (fr_res f = [] <-> fr_res g = []).
Lemma frame_flip st qs : alike (make_frame st qs) (make_frame (option_map opp3 st) (map Z.opp qs)).
Proof.
  assert (E : fr_e (make_frame st qs) = fr_e (make_frame (option_map opp3 st) (map Z.opp qs))).
  { destruct st as [t|]; cbn [option_map make_frame fr_e].
    - now rewrite diffs_flip, best_flip.
    - rewrite !nth_opp. change (- nth 0 qs 0, - nth 1 qs 0, - nth 2 qs 0) with (opp3 (nth 0 qs 0, nth 1 qs 0, nth 2 qs 0)).
      rewrite skipn_map, diffs_flip, best_flip. reflexivity. }
  assert (L : length (fr_res (make_frame st qs)) = length (fr_res (make_frame (option_map opp3 st) (map Z.opp qs)))).
  { destruct st as [t|]; cbn [option_map make_frame fr_res]; rewrite !length_residuals, ?skipn_map, ?map_length; reflexivity. }
  split; [exact E|]. split.
  - pose proof (make_frame_e st qs) as He. rewrite !zlen_fr_bits by lia. rewrite <- E. f_equal.
    + destruct st; cbn [option_map make_frame fr_raw]; [reflexivity|]. now rewrite firstn_map, zlen_map.
    + clear E L. generalize dependent (fr_e (make_frame st qs)). intros e He. symmetry. destruct st as [t|]; cbn [option_map make_frame fr_res]; unfold residuals.
      * rewrite diffs_flip. apply cost_limit_flip. lia.
      * rewrite !nth_opp. change (- nth 0 qs 0, - nth 1 qs 0, - nth 2 qs 0) with (opp3 (nth 0 qs 0, nth 1 qs 0, nth 2 qs 0)).
        rewrite skipn_map, diffs_flip. apply cost_limit_flip. lia.
  - destruct (fr_res (make_frame st qs)), (fr_res (make_frame (option_map opp3 st) (map Z.opp qs))); cbn in L; try discriminate; split; auto; discriminate.
Qed.
Lemma row_flip call : forall sts, Forall2 alike (make_row sts call) (make_row (map (option_map opp3) sts) (map (map Z.opp) call)).
Proof.
  unfold make_row. induction call as [|qs call IH]; intros [|st sts]; cbn [map zipw]; try constructor; auto using frame_flip.
Qed.
Lemma next_flip call : forall sts, next_sts (map (option_map opp3) sts) (map (map Z.opp) call) = map (option_map opp3) (next_sts sts call).
Proof.
  unfold next_sts. induction call as [|qs call IH]; intros [|st sts]; cbn [map zipw]; auto. rewrite IH. f_equal. cbn [option_map]. f_equal.
  destruct st as [t|]; cbn [option_map next_hist]; [apply hist_flip|exact (hist_flip qs (0, 0, 0))].
Qed.
Lemma rows_flip calls : forall sts,
  Forall2 alike (concat (make_rows sts calls)) (concat (make_rows (map (option_map opp3) sts) (map (map (map Z.opp)) calls))).
Proof.
  induction calls as [|call calls IH]; intros sts; cbn [map make_rows concat]; [constructor|].
  apply Forall2_app; [apply row_flip|]. rewrite next_flip. apply IH.
Qed.
Lemma map_none n : map (option_map opp3) (repeat None n) = repeat None n.
Proof. induction n as [|n IH]; cbn [repeat map option_map]; [reflexivity|]. now rewrite IH. Qed.
Lemma frames_flip ch pcms : Forall2 alike (concat (frames_of (inv_gain 0) ch pcms)) (concat (frames_of (inv_gain 0) ch (inverted pcms))).
Proof.
  unfold frames_of. rewrite quant_calls_flip. pose proof (rows_flip (quant_calls (inv_gain 0) 0 ch pcms) (repeat None (Z.to_nat ch))) as H.
  rewrite map_none in H. exact H.
Qed.
Lemma alike_bits fs gs : Forall2 alike fs gs -> zlen (flat_map fr_bits fs) = zlen (flat_map fr_bits gs) /\ zlen fs = zlen gs.
Proof.
  induction 1 as [|f g fs gs (_ & H & _) HF [IH1 IH2]]; [split; reflexivity|]. cbn [flat_map]. rewrite !zlen_app, !zlen_cons, H, IH1, IH2. split; reflexivity.
Qed.
Lemma alike_safe p fs gs : Forall2 alike fs gs -> Forall (frame_exp_ok p) fs -> Forall (frame_exp_ok p) gs.
Proof.
  induction 1 as [|f g fs gs (E & _ & Q) HF IH]; intros H; constructor; inversion H; subst; auto.
  unfold frame_exp_ok in *. rewrite <- E, <- Q. assumption.
Qed.
Lemma inverted_ok ch pcms : recording_ok ch pcms -> recording_ok ch (inverted pcms).
Proof.
  intros (A & B & C & D & E). unfold recording_ok, inverted. split; [exact A|]. split; [destruct pcms; cbn [map]; rewrite ?zlen_map; exact B|].
  split; [rewrite Forall_map; eapply Forall_impl; [|exact C]; intros a Ha; rewrite zlen_map; exact Ha|].
  rewrite zlen_map, <- concat_map, zlen_map. auto.
Qed.
Lemma inverted_gap ch pcms : no_long_gap ch pcms -> no_long_gap ch (inverted pcms).
Proof.
  intros H a b c E HB L. unfold inverted in E. apply map_eq_app in E. destruct E as (a1 & r & -> & <- & E).
  apply map_eq_app in E. destruct E as (b1 & c1 & -> & <- & <-). rewrite map_length in L. rewrite Forall_map in *.
  eapply Forall_impl; [|apply (H a1 b1 c1 eq_refl); [eapply Forall_impl; [|exact HB]|exact L]]; intros x Hx; cbv beta in *; rewrite zlen_map in *; exact Hx.
Qed.

Lemma save_size p info pcms c : let ch := si_channels info in recording_ok ch pcms -> encode_all p (new_codec info 0) pcms = Ok c ->
  let fs := concat (frames_of (inv_gain 0) ch pcms) in let f := zlen fs in let bits := zlen (flat_map fr_bits fs) in
  let tables := 117 + (f + 1) / 2 + 8 * ((f + 63) / 64) + 16 * f in
  tables + 16 * (bits / 128) <= zlen (ad_save c) <= tables + 16 * (bits / 128) + 32.
Proof.
  intros ch HR E. pose proof (encoded_safe p info 0 pcms c HR E) as HS.
  destruct (encode_recording p info 0 pcms HR HS) as (c1' & E' & _ & R & _).
  rewrite E in E'. injection E' as <-. clear E. fold ch in R. rewrite new_codec_inv in R by lia.
  cbv zeta. set (fs := concat (frames_of (inv_gain 0) ch pcms)) in *. clearbody fs.
  destruct R as [Hi _ _ _ HB [HH _] _]. destruct HB as ([W _] & _ & HC & _ & HL). rewrite HC in W.
  destruct HH as (_ & (_ & _ & N & _) & (_ & _ & _ & V & _) & S1 & S2 & S3).
  rewrite (zlen_save c info Hi), S1, S2, S3, N, V, !zlen_map, !zlen_headers_of.
  set (bits := zlen (flat_map fr_bits fs)) in *. assert (0 <= bits) by apply zlen_nonneg. 
  assert (K : 128 * (bits / 128) <= bits) by (apply Z.mul_div_le; lia). assert (K0 : 0 <= bits / 128) by (apply Z.div_pos; lia). clearbody bits. clear - W HL K K0 H. lia.
Qed.

(** ** C101 *)
(** At level 0 a recording and the one with the polarity inverted are encoded in the same builds, into files that differ by
    at most two chunks of 16 bytes in size. *)
Theorem C101_same_size : forall p info pcms c1, let ch := si_channels info in
  recording_ok ch pcms -> encode_all p (new_codec info 0) pcms = Ok c1 ->
  exists c2, encode_all p (new_codec info 0) (inverted pcms) = Ok c2 /\ Z.abs (zlen (ad_save c1) - zlen (ad_save c2)) <= 32.
Proof.
  intros p info pcms c1 ch HR E. pose proof (frames_flip ch pcms) as F. pose proof (inverted_ok ch pcms HR) as HR'.
  assert (HS : safe_build p (ad_inv_scale (new_codec info 0)) ch (inverted pcms)).
  { pose proof (encoded_safe p info 0 pcms c1 HR E) as HS. rewrite new_codec_inv in * by lia. unfold safe_build in *. eapply alike_safe; eassumption. }
  destruct (encode_recording p info 0 (inverted pcms) HR' HS) as (c2 & E2 & _). exists c2. split; [exact E2|].
  pose proof (save_size p info pcms c1 HR E) as S1. pose proof (save_size p info (inverted pcms) c2 HR' E2) as S2. fold ch in S1, S2.
  apply alike_bits in F. destruct F as [F1 F2]. cbv zeta in S1, S2. rewrite F1, F2 in S1. lia.
Qed.
Print Assumptions C101_same_size.

(** Of a signal without extreme jumps, inverting it inverts what is played: every sample is minus the one played otherwise. *)
Lemma interleave_minus {A} (R : A -> A -> Prop) d : R d d -> forall n la lb, Forall2 (Forall2 R) la lb -> Forall2 R (interleave d n la) (interleave d n lb).
Proof.
  intros Hd. induction n as [|n IH]; intros la lb H; cbn [interleave]; [constructor|]. apply Forall2_app.
  - induction H as [|a b la lb Hab H IH']; cbn [map]; constructor; auto. destruct Hab; cbn [hd]; auto.
  - apply IH. clear IH. induction H as [|a b la lb Hab H IH']; cbn [map]; constructor; auto. destruct Hab; cbn [tl]; auto.
Qed.
Lemma firstn_minus {A} (R : A -> A -> Prop) n : forall la lb, Forall2 R la lb -> Forall2 R (firstn n la) (firstn n lb).
Proof. induction n as [|n IH]; intros la lb H; cbn [firstn]; [constructor|]. destruct H; constructor; auto. Qed.
Lemma played_minus q : -32767 <= q <= 32767 -> minus (fmul (restore q) (gain 0)) (fmul (restore (- q)) (gain 0)).
Proof.
  intros Hq. destruct (gain_exact 0 q) as [F1 _]; [lia|lia|]. destruct (gain_exact 0 (- q)) as [F2 _]; [lia|lia|].
  split; [exact F1|]. split; [exact F2|]. apply flipped_R. apply mul_flip. unfold restore. apply mul_flip. apply of_Z_flip.
Qed.
Lemma total_inverted ch pcms : total_blocks ch (inverted pcms) = total_blocks ch pcms.
Proof. unfold total_blocks, inverted. rewrite map_map. f_equal. apply map_ext. intros pcm. now rewrite zlen_map. Qed.
Theorem C101_inverted_sound : forall p info pcms, let ch := si_channels info in
  recording_ok ch pcms -> no_long_gap ch pcms ->
  (forall c, 0 <= c < ch -> calm (quant_signal (inv_gain 0) ch pcms c)) ->
  exists c1 c2, encode_all p (new_codec info 0) pcms = Ok c1 /\ encode_all p (new_codec info 0) (inverted pcms) = Ok c2 /\
    forall bufs, exists d1 d2 rs1 rs2, decode_all p (ad_init c1) bufs = Ok (d1, rs1) /\ decode_all p (ad_init c2) bufs = Ok (d2, rs2) /\
      Forall2 minus (concat (map reported rs1)) (concat (map reported rs2)).
Proof.
  intros p info pcms ch HR HG HT.
  destruct (C06_round_trip p info 0 pcms ltac:(lia) HR HG) as (c1 & E1 & D1).
  { intros c Hc. apply calm_tame. now apply HT. }
  destruct (C06_round_trip p info 0 (inverted pcms) ltac:(lia) (inverted_ok _ _ HR) (inverted_gap _ _ HG)) as (c2 & E2 & D2).
  { intros c Hc. rewrite quant_signal_flip. apply calm_tame. now apply HT. }
  exists c1, c2. split; [exact E1|]. split; [exact E2|]. intros bufs.
  destruct (D1 bufs) as (d1 & rs1 & P1 & Q1). destruct (D2 bufs) as (d2 & rs2 & P2 & Q2).
  exists d1, d2, rs1, rs2. split; [exact P1|]. split; [exact P2|]. rewrite Q1, Q2. apply firstn_minus.
  unfold decoded_signal, output_of. rewrite total_inverted. apply interleave_minus.
  - split; [reflexivity|]. split; [reflexivity|]. change (B2R (f32_of_Z 0)) with 0%R. lra.
  - induction (range (si_channels info)) as [|c l IH]; cbn [map]; constructor; auto. rewrite quant_signal_flip.
    pose proof (quant_signal_range (inv_gain 0) (si_channels info) pcms c) as R. induction R as [|q qs Hq R IR]; cbn [map]; constructor; auto using played_minus.
Qed.
Print Assumptions C101_inverted_sound.

(** "Inverting the polarity inverts what is played, at every level": no.  At level 4 the dither is added the same way round
    to both, and what comes back differs by more than the sign. *)
Definition played (level : Z) (pcm : list f32) : option (list Z) :=
  match encode_all Release (new_codec mono level) [pcm] with
  | Ok c => match ad_decode Release (ad_init c) (repeat f0 (length pcm)) with Ok (_, out, _) => Some (map truncate_sample out) | _ => None end
  | _ => None
  end.
Theorem C101_higher_levels_refuted :
  let tone := map milli [100; 200; 110; 210; 120; 220] in
  played 4 tone = Some [3280; 6560; 3584; 6864; 3920; 7184] /\
  played 4 (map Bopp tone) = Some [-3248; -6528; -3616; -6880; -3936; -7216].
Proof. cbv zeta. split; vm_compute; reflexivity. Qed.
Print Assumptions C101_higher_levels_refuted.
(** "The same holds for any signal at level 0": no.  The residual +32767 is cut to 32766, the residual -32767 is not. *)
Theorem C101_any_signal_refuted :
  let jump := map milli [0; 0; 0; 1000; 1000] in
  played 0 jump = Some [0; 0; 0; 32766; 32767] /\ played 0 (map Bopp jump) = Some [0; 0; 0; -32767; -32767].
Proof. cbv zeta. split; vm_compute; reflexivity. Qed.
Print Assumptions C101_any_signal_refuted.

(** The hypotheses are met by the stereo demo. *)
Definition calmb (qs : list Z) : bool :=
  forallb (fun t => Z.abs (nth t qs 0 - predict (nth (t - 3) qs 0) (nth (t - 2) qs 0) (nth (t - 1) qs 0)) <=? 32766) (seq 3 (length qs - 3)).
Lemma calmb_calm qs : calmb qs = true -> calm qs.
Proof. unfold calmb. rewrite forallb_forall. intros H t Ht. specialize (H t). rewrite in_seq in H. apply Z.leb_le, H. lia. Qed.
Example C101_applies : recording_ok 2 demo /\ no_long_gap 2 demo /\
  (forall c, 0 <= c < 2 -> calm (quant_signal (inv_gain 0) 2 demo c)) /\ exists c1, encode_all Debug (new_codec stereo 0) demo = Ok c1.
Proof.
  assert (HC : forall c, 0 <= c < 2 -> calm (quant_signal (inv_gain 0) 2 demo c)).
  { intros c Hc. apply calmb_calm.
    assert (H : forallb (fun c => calmb (quant_signal (inv_gain 0) 2 demo c)) (range 2) = true) by (vm_compute; reflexivity).
    rewrite forallb_forall in H. apply H. now apply in_range. }
  split; [apply demo_ok|]. split; [apply demo_gap|]. split; [exact HC|].
  destruct (C101_inverted_sound Debug stereo demo) as (c1 & _ & E & _); [apply demo_ok|apply demo_gap|exact HC|]. now exists c1.
Qed.
