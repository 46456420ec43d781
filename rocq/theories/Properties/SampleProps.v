(** * Properties C10-C14, C33, C34, C49, C54: sample values

    [B2R x] is the real number an f32 stands for and [is_finite x] says that it stands for
    one (Flocq).  [restore], [quantise], [whole], [gain], ... are defined in
    Spec/Recording.v. *)
From Coq Require Import ZArith List Bool Reals Lra Lia.
From Flocq Require Import IEEE754.BinarySingleNaN.
From Verif Require Import Model.Base Model.F32 Model.Noise Model.Parabola Model.Sample Model.Adhoc
  Spec.Codec Spec.Recording
  Proofs.BaseFacts Proofs.FloatFacts Proofs.Predict Proofs.FrameFacts Proofs.RoundTrip Proofs.SignalFacts
  Properties.Demo Properties.RoundTripProps.
Import ListNotations.
Open Scope Z_scope.

(** The sample is a number of magnitude at most [b]. *)
Definition within (b : R) (s : f32) : Prop := is_finite s = true /\ (Rabs (B2R s) <= b)%R.
(** [a] and [b] are numbers at most [d] apart. *)
Definition close (d : R) (a b : f32) : Prop := is_finite a = true /\ (Rabs (B2R a - B2R b) <= d)%R.

Lemma milli_within b n m e : milli n = flit m e -> (Z.abs m <= 2 ^ 24)%Z -> (-149 <= e <= 0)%Z -> (b <= 1)%R ->
  (Rabs (Defs.F2R (Defs.Float Zaux.radix2 m e)) <= b)%R -> within b (milli n).
Proof.
  intros -> Hm He Hb H. destruct (flit_R m e) as [F V]; try lia.
  - eapply Rle_lt_trans; [exact H|]. apply Rle_lt_trans with 1%R; [lra|].
    apply (Raux.bpow_lt Zaux.radix2 0 127). lia.
  - split; [exact F|]. change (B2R (flit m e)) with (val (flit m e)). now rewrite V.
Qed.
Ltac milli_tac m e := apply (milli_within _ _ m e); try lia; try lra;
  [apply B2SF_inj; vm_compute; reflexivity | apply Rabs_le; unfold Defs.F2R; cbn; split; lra].

(** ** C12: quantisation at level 0 *)
Theorem C12_quantisation : forall s,
  (within 1 s -> close (1.01 / 32767) (normalize_sample (truncate_sample s)) s) /\
  (is_finite s = true -> (1 <= B2R s)%R -> truncate_sample s = 32767 /\ normalize_sample (truncate_sample s) = f32_of_Z 1) /\
  (is_finite s = true -> (B2R s <= -1)%R -> truncate_sample s = -32767 /\ normalize_sample (truncate_sample s) = f32_of_Z (-1)) /\
  (s = B754_infinity false -> truncate_sample s = 32767) /\
  (s = B754_infinity true -> truncate_sample s = -32767) /\
  (s = B754_nan -> truncate_sample s = 0 /\ normalize_sample (truncate_sample s) = f32_of_Z 0) /\
  -32767 <= truncate_sample s <= 32767.
Proof.
  intros s. split; [|split; [|split; [|split; [|split; [|split]]]]].
  - intros [F B]. destruct (restore_quantise s F B) as [F' E]. split; [exact F'|].
    unfold val in E. eapply Rle_trans; [exact E|]. lra.
  - intros F B. assert (E : truncate_sample s = truncate_sample f1).
    { unfold truncate_sample. do 2 f_equal. unfold fclamp. destruct val_f1 as [F1 V1], val_fm1 as [Fm Vm].
      rewrite (flt_R s fm1), Vm by auto. rewrite Raux.Rlt_bool_false by (unfold val; lra).
      rewrite (flt_R f1 s), V1 by auto.
      destruct (Raux.Rlt_bool_spec 1 (val s)) as [H|H]; [reflexivity|].
      assert (Es : s = f1); [|now subst].
      apply B2R_Bsign_inj; auto.
      - change (B2R s = val f1). rewrite V1. unfold val in *. lra.
      - replace (Bsign f1) with false by reflexivity.
        destruct s as [b|b| |b m e Hb]; cbn [Bsign]; try discriminate F.
        + cbn in B. lra.
        + destruct b; auto. unfold val in *. cbn [B2R] in B.
          pose proof (Float_prop.F2R_lt_0 Zaux.radix2 (Defs.Float Zaux.radix2 (Zaux.cond_Zopp true (Z.pos m)) e)) as N.
          cbn in N. specialize (N eq_refl). cbn in B. lra. }
    rewrite E. split; [reflexivity|]. apply B2SF_inj. vm_compute. reflexivity.
  - intros F B. assert (E : truncate_sample s = truncate_sample fm1).
    { unfold truncate_sample. do 2 f_equal. unfold fclamp. destruct val_f1 as [F1 V1], val_fm1 as [Fm Vm].
      rewrite (flt_R s fm1), Vm by auto.
      destruct (Raux.Rlt_bool_spec (val s) (-1)) as [H|H]; [reflexivity|].
      assert (Es : s = fm1); [|now subst].
      apply B2R_Bsign_inj; auto.
      - change (B2R s = val fm1). rewrite Vm. unfold val in *. lra.
      - replace (Bsign fm1) with true by reflexivity.
        destruct s as [b|b| |b m e Hb]; cbn [Bsign]; try discriminate F.
        + cbn in B. lra.
        + destruct b; auto. unfold val in *. cbn [B2R] in B.
          pose proof (Float_prop.F2R_gt_0 Zaux.radix2 (Defs.Float Zaux.radix2 (Zaux.cond_Zopp false (Z.pos m)) e)) as N.
          cbn in N. specialize (N eq_refl). cbn in B. lra. }
    rewrite E. split; [reflexivity|]. apply B2SF_inj. vm_compute. reflexivity.
  - intros ->. reflexivity.
  - intros ->. reflexivity.
  - intros ->. split; reflexivity.
  - apply truncate_range.
Qed.
Print Assumptions C12_quantisation.
Example C12_applies : within 1 (milli 250) /\ truncate_sample (milli 250) = 8191 /\
  truncate_sample (milli 2500) = 32767 /\ truncate_sample (milli (-2500)) = -32767.
Proof.
  split; [milli_tac 1 (-2)|vm_compute; auto].
Qed.

(** ** C14: the prediction *)
Theorem C14_prediction : forall a b c,
  -32768 <= a <= 32767 -> -32768 <= b <= 32767 -> -32768 <= c <= 32767 ->
  Z.abs (predict a b c - Z.max (-32767) (Z.min 32767 (a - 3 * b + 3 * c))) <= 1.
Proof. exact predict_close. Qed.
Print Assumptions C14_prediction.
(** One step off does happen, in both directions; so does clamping. *)
Example C14_cases : predict (-1000) (-8191) 5 - (-1000 - 3 * -8191 + 3 * 5) = -1 /\ predict 0 9830 (-9830) = -32767 /\
  predict (-8191) 0 (-7) - (-8191 + 3 * -7) = 1.
Proof. vm_compute. auto. Qed.

(** ** C11: bounded loss *)
Lemma loss p info level pcms :
  let ch := si_channels info in
  0 <= level -> recording_ok ch pcms -> no_long_gap ch pcms -> Forall (Forall (within 1)) pcms ->
  (forall c, 0 <= c < ch -> tame (quant_signal (inv_gain level) ch pcms c)) ->
  exists c1 out, encode_all p (new_codec info level) pcms = Ok c1 /\
    Forall2 (close (IZR (2 ^ Z.min level 10) * 1.01 / 32767 + 0.00101)) out (flat_map (whole ch) pcms) /\
    forall bufs, exists c2 rs, decode_all p (ad_init c1) bufs = Ok (c2, rs) /\
      concat (map reported rs) = firstn (Z.to_nat (room ch bufs)) out.
Proof.
  intros ch Hl HR HG HW HT. destruct (C06_round_trip p info level pcms Hl HR HG HT) as (c1 & E & H).
  fold ch in H. exists c1, (decoded_signal level ch pcms). split; [exact E|]. split; [|exact H].
  assert (Hch : 0 < ch) by apply HR.
  assert (HI : Forall (within 1) (flat_map (whole ch) pcms)).
  { apply Forall_forall. intros s Hs. apply in_flat_map in Hs. destruct Hs as (pcm & H1 & H2).
    rewrite Forall_forall in HW. specialize (HW pcm H1). rewrite Forall_forall in HW. apply HW.
    unfold whole in H2. rewrite <- (firstn_skipn (Z.to_nat (ch * (zlen pcm / ch))) pcm). apply in_or_app. now left. }
  pose proof (decoded_heard level ch pcms Hch) as HH. clear H. revert HI.
  induction HH as [|o s l l' (j & ->) HH IH]; intros HI; constructor.
  - inversion HI as [|? ? [F B] _]; subst. now apply heard_close.
  - apply IH. inversion HI; assumption.
Qed.
Theorem C11_bounded_loss : forall p info level pcms,
  let ch := si_channels info in
  4 <= level -> recording_ok ch pcms -> no_long_gap ch pcms -> Forall (Forall (within 1)) pcms ->
  exists c1 out, encode_all p (new_codec info level) pcms = Ok c1 /\
    Forall2 (close (IZR (2 ^ Z.min level 10) * 1.01 / 32767 + 0.00101)) out (flat_map (whole ch) pcms) /\
    forall bufs, exists c2 rs, decode_all p (ad_init c1) bufs = Ok (c2, rs) /\
      concat (map reported rs) = firstn (Z.to_nat (room ch bufs)) out.
Proof.
  intros p info level pcms ch Hl HR HG HW. apply loss; auto; [lia|]. intros c Hc.
  apply smooth_tame; [apply quant_signal_range|]. apply level4_smooth; auto; try lia.
  eapply Forall_impl; [|exact HW]. intros pcm HP. eapply Forall_impl; [|exact HP].
  intros s [Fs Bs]. split; [exact Fs|]. unfold val. lra.
Qed.
Print Assumptions C11_bounded_loss.
(** At lower levels the same bound holds for channels on which no residual is clamped. *)
Theorem C11_bounded_loss_low_levels : forall p info level pcms,
  let ch := si_channels info in
  0 <= level -> recording_ok ch pcms -> no_long_gap ch pcms -> Forall (Forall (within 1)) pcms ->
  (forall c, 0 <= c < ch -> smooth (quant_signal (inv_gain level) ch pcms c)) ->
  exists c1 out, encode_all p (new_codec info level) pcms = Ok c1 /\
    Forall2 (close (IZR (2 ^ Z.min level 10) * 1.01 / 32767 + 0.00101)) out (flat_map (whole ch) pcms) /\
    forall bufs, exists c2 rs, decode_all p (ad_init c1) bufs = Ok (c2, rs) /\
      concat (map reported rs) = firstn (Z.to_nat (room ch bufs)) out.
Proof.
  intros p info level pcms ch Hl HR HG HW HS. apply loss; auto. intros c Hc.
  apply smooth_tame; [apply quant_signal_range|]. now apply HS.
Qed.
Print Assumptions C11_bounded_loss_low_levels.

(** Without any condition on the signal's shape it is enough that the signal is not too loud for
    the level: at most 0.123 at level 0, 0.248 at level 1, 0.498 at level 2, 0.998 at level 3. *)
Theorem C11_loss_by_loudness : forall p info level pcms,
  let ch := si_channels info in
  0 <= level -> recording_ok ch pcms -> no_long_gap ch pcms -> Forall (Forall (within 1)) pcms ->
  Forall (Forall (within (IZR (2 ^ level) / 8 - 0.002))) pcms ->
  exists c1 out, encode_all p (new_codec info level) pcms = Ok c1 /\
    Forall2 (close (IZR (2 ^ Z.min level 10) * 1.01 / 32767 + 0.00101)) out (flat_map (whole ch) pcms) /\
    forall bufs, exists c2 rs, decode_all p (ad_init c1) bufs = Ok (c2, rs) /\
      concat (map reported rs) = firstn (Z.to_nat (room ch bufs)) out.
Proof.
  intros p info level pcms ch Hl HR HG HW HA. destruct (Z_le_gt_dec 4 level) as [H4|H4]; [now apply C11_bounded_loss|].
  apply C11_bounded_loss_low_levels; auto. intros c Hc. apply loudness_smooth; auto; try lia; apply HR.
Qed.
Print Assumptions C11_loss_by_loudness.

(** Full-scale alternation, the worst case for the predictor, meets the hypotheses at
    level 4 (and is far from [tame] at level 0). *)
Definition harsh : list (list f32) := [[f1; fm1; f1; fm1; f1; fm1; f1; f1; fm1]].
Example C11_applies : recording_ok 1 harsh /\ no_long_gap 1 harsh /\ Forall (Forall (within 1)) harsh /\
  tameb (quant_signal (inv_gain 0) 1 harsh 0) = false.
Proof.
  split; [|split; [apply short_no_gap; cbn; lia|split; [|vm_compute; reflexivity]]].
  - split; [lia|]. split; [vm_compute; discriminate|]. split; [|split; vm_compute; congruence]. repeat constructor.
  - destruct val_f1 as [F1 V1], val_fm1 as [Fm Vm]. unfold val in *.
    assert (A : within 1 f1) by (split; [exact F1|rewrite V1; rewrite Rabs_pos_eq; lra]).
    assert (B : within 1 fm1) by (split; [exact Fm|rewrite Vm; rewrite Rabs_left; lra]).
    repeat (constructor; auto).
Qed.

(** ** C13: quiet signals at level 0 *)
Theorem C13_quiet_lossless : forall p info pcms,
  let ch := si_channels info in
  recording_ok ch pcms -> no_long_gap ch pcms -> Forall (Forall (within (/ 8))) pcms ->
  exists c1, encode_all p (new_codec info 0) pcms = Ok c1 /\
    forall bufs, exists c2 rs, decode_all p (ad_init c1) bufs = Ok (c2, rs) /\
      concat (map reported rs)
        = firstn (Z.to_nat (room ch bufs)) (map (fun s => restore (quantise s)) (flat_map (whole ch) pcms)).
Proof.
  intros p info pcms ch HR HG HW. assert (Hch : 0 < ch) by apply HR.
  rewrite <- (decoded_level0 ch pcms Hch). apply C06_round_trip; auto; [lia|]. intros c Hc.
  apply smooth_tame; [apply quant_signal_range|]. now apply quiet_smooth.
Qed.
Print Assumptions C13_quiet_lossless.
Example C13_applies : Forall (Forall (within (/ 8))) [map milli [125; -125; 125; -125; 0; 99]] /\
  recording_ok 2 [map milli [125; -125; 125; -125; 0; 99]].
Proof.
  split.
  - assert (within (/ 8) (milli 125)) by milli_tac 1 (-3).
    assert (within (/ 8) (milli (-125))) by milli_tac (-1) (-3).
    assert (within (/ 8) (milli 0)) by milli_tac 0 (-3).
    assert (within (/ 8) (milli 99)) by milli_tac 13287555 (-27).
    repeat (constructor; auto).
  - split; [lia|]. split; [vm_compute; discriminate|]. split; [|split; vm_compute; congruence]. repeat constructor.
Qed.

(** ** C10: level 0 is not lossless *)
(** Exact when no residual is clamped: every sample comes back as its 16-bit value. *)
Theorem C10_exact_if_unclamped : forall p info pcms,
  let ch := si_channels info in
  recording_ok ch pcms -> no_long_gap ch pcms ->
  (forall c, 0 <= c < ch -> tame (quant_signal (inv_gain 0) ch pcms c)) ->
  exists c1, encode_all p (new_codec info 0) pcms = Ok c1 /\
    forall bufs, exists c2 rs, decode_all p (ad_init c1) bufs = Ok (c2, rs) /\
      concat (map reported rs)
        = firstn (Z.to_nat (room ch bufs)) (map (fun s => restore (quantise s)) (flat_map (whole ch) pcms)).
Proof.
  intros p info pcms ch HR HG HT. assert (Hch : 0 < ch) by apply HR.
  rewrite <- (decoded_level0 ch pcms Hch). now apply C06_round_trip.
Qed.
Print Assumptions C10_exact_if_unclamped.
(** A click of 0.3 up and down, then silence. *)
Definition click : list f32 := map milli [0; 0; 0; 0; 300; -300].

Lemma click_ok n : Forall (within 1) (click ++ repeat f0 n).
Proof.
  assert (within 1 (milli 300)) by milli_tac 10066330 (-25).
  assert (within 1 (milli (-300))) by milli_tac (-10066330) (-25).
  assert (within 1 (milli 0)) by milli_tac 0 (-3).
  apply Forall_app. split; [repeat (constructor; auto)|].
  apply Forall_forall. intros x Hx. apply repeat_spec in Hx. subst.
  replace f0 with (milli 0) by (apply B2SF_inj; vm_compute; reflexivity). auto.
Qed.
(** Not lossless: the click, one channel, level 0, every build.  Sample 32 is 0 and comes
    back as 1. *)
Theorem C10_lossless_refuted : forall p,
  let pcm := click ++ repeat f0 30 in
  Forall (within 1) pcm /\ nth 32 pcm f0 = f0 /\
  match encode_all p (new_codec mono 0) [pcm] with
  | Ok c1 =>
      match ad_decode p (ad_init c1) (repeat f0 36) with
      | Ok (_, out, Some n) => n = 36 /\ nth 32 out f0 = f32_of_Z 1
      | _ => False
      end
  | _ => False
  end.
Proof.
  intros p pcm. split; [apply click_ok|split; [reflexivity|]].
  assert (H : match encode_all p (new_codec mono 0) [pcm] with
      | Ok c1 => match ad_decode p (ad_init c1) (repeat f0 36) with
                 | Ok (_, out, Some n) => n = 36 /\ B2SF (nth 32 out f0) = B2SF (f32_of_Z 1)
                 | _ => False end
      | _ => False end) by (destruct p; vm_compute; auto).
  revert H. generalize (encode_all p (new_codec mono 0) [pcm]). intros [c1| |]; auto.
  generalize (ad_decode p (ad_init c1) (repeat f0 36)). intros [[[c out] [n|]]| |]; auto.
  intros [-> H]. split; [reflexivity|]. now apply B2SF_inj.
Qed.
Print Assumptions C10_lossless_refuted.

(** ** C54: one click turns the silence after it into a full-scale tone *)
Definition cycle (i : nat) : Z := nth (i mod 6) [9679; 32767; 32767; 9679; -32767; -32767] 0.
Lemma cycle_shift i : cycle (i + 6) = cycle i.
Proof. unfold cycle. f_equal. replace (i + 6)%nat with (i + 1 * 6)%nat by lia. apply Nat.mod_add. lia. Qed.
Lemma cycle_next i : predict (cycle i) (cycle (i + 1)) (cycle (i + 2)) = cycle (i + 3).
Proof.
  assert (H : forall r, (r < 6)%nat -> predict (cycle r) (cycle (r + 1)) (cycle (r + 2)) = cycle (r + 3)).
  { intros r Hr. do 6 (destruct r as [|r]; [vm_compute; reflexivity|]). lia. }
  induction i as [i IH] using (well_founded_induction lt_wf).
  destruct (Nat.lt_ge_cases i 6) as [L|L]; [now apply H|].
  specialize (IH (i - 6)%nat ltac:(lia)).
  replace i with (i - 6 + 6)%nat at 1 4 by lia.
  replace (i + 1)%nat with (i - 6 + 1 + 6)%nat by lia. replace (i + 2)%nat with (i - 6 + 2 + 6)%nat by lia.
  replace (i - 6 + 6 + 3)%nat with (i - 6 + 3 + 6)%nat by lia. now rewrite !cycle_shift.
Qed.
Lemma reconstruct_cycle n : forall i,
  reconstruct (cycle i, cycle (i + 1)%nat, cycle (i + 2)%nat) (repeat 0 n) = map cycle (seq (i + 3) n).
Proof.
  induction n as [|n IH]; intros i; [reflexivity|].
  cbn [repeat reconstruct seq map pred_of shift].
  replace (Z.max (-32768) (Z.min 32767 (0 + predict (cycle i) (cycle (i + 1)) (cycle (i + 2))))) with (cycle (i + 3)).
  2:{ rewrite cycle_next. unfold cycle. pose proof (Nat.mod_upper_bound (i + 3) 6 ltac:(lia)) as B. revert B.
      generalize ((i + 3) mod 6)%nat. intros r B. do 6 (destruct r as [|r]; [reflexivity|]). lia. }
  f_equal. specialize (IH (S i)). replace (S i + 1)%nat with (i + 2)%nat in IH by lia.
  replace (S i + 2)%nat with (i + 3)%nat in IH by lia. replace (i + 1)%nat with (S i) by lia.
  replace (S (i + 3)) with (S i + 3)%nat by lia. exact IH.
Qed.

Lemma diffs_silence n : diffs (0, 0, 0) (repeat 0 n) = repeat 0 n.
Proof.
  induction n as [|n IH]; [reflexivity|]. cbn [repeat diffs pred_of shift].
  replace (predict 0 0 0) with 0 by (vm_compute; reflexivity). rewrite IH. reflexivity.
Qed.
Lemma lossy_click n : exists l, length l = 34%nat /\
  lossy ([0; 0; 0; 0; 9830; -9830] ++ repeat 0 (28 + n)) = l ++ map cycle (seq 3 n).
Proof.
  unfold lossy. rewrite repeat_app.
  change (firstn 3 ([0; 0; 0; 0; 9830; -9830] ++ repeat 0 28 ++ repeat 0 n)) with [0; 0; 0].
  change (skipn 3 ([0; 0; 0; 0; 9830; -9830] ++ repeat 0 28 ++ repeat 0 n)) with ([0; 9830; -9830] ++ repeat 0 28 ++ repeat 0 n).
  cbn [app nth]. rewrite !app_comm_cons. rewrite DecodeFacts.residuals_app.
  replace (fold_left shift (0 :: 9830 :: -9830 :: repeat 0 28) (0, 0, 0)) with (0, 0, 0) by reflexivity.
  unfold residuals at 2. rewrite diffs_silence.
  replace (map limit (repeat 0 n)) with (repeat 0 n) by (induction n; cbn; congruence).
  rewrite reconstruct_app.
  assert (E : fold_left shift (reconstruct (0, 0, 0) (residuals (0, 0, 0) (0 :: 9830 :: -9830 :: repeat 0 28))) (0, 0, 0)
     = (cycle 0, cycle 1, cycle 2)) by (vm_compute; reflexivity).
  rewrite E. change (cycle 1) with (cycle (0 + 1)). change (cycle 2) with (cycle (0 + 2)).
  rewrite (reconstruct_cycle n 0).
  eexists. split; [|rewrite !app_comm_cons; reflexivity].
  { cbn [length]. rewrite length_reconstruct, length_residuals. reflexivity. }
Qed.
Theorem C54_click_rings_forever : forall p rate n ks c1,
  let info := mkInfo rate 1 in
  let pcms := (click ++ repeat f0 n) :: map (repeat f0) ks in
  recording_ok 1 pcms -> no_long_gap 1 pcms ->
  encode_all p (new_codec info 0) pcms = Ok c1 ->
  forall bufs, exists c2 rs,
    let out := concat (map reported rs) in
    decode_all p (ad_init c1) bufs = Ok (c2, rs) /\
    zlen out = Z.min (room 1 bufs) (zlen (concat pcms)) /\
    forall i, (34 <= i < length out)%nat ->
      nth i (concat pcms) f0 = f0 /\
      ((i mod 3 <> 1)%nat -> nth i out f0 = f32_of_Z 1 \/ nth i out f0 = f32_of_Z (-1)).
Proof.
  intros p rate n ks c1 info pcms HR HG E bufs.
  pose proof (encoded_playing _ info 0 pcms c1 ltac:(lia) HR E) as HP. change (si_channels info) with 1 in HP.
  rewrite audible_all in HP by (auto; lia).
  destruct (playing_decode _ _ info 0 pcms _ _ bufs HP) as (c2 & rs & E2 & R & _).
  { right. change (si_channels info) with 1. lia. }
  exists c2, rs. intros out. split; [exact E2|].
  change (si_channels info) with 1 in R.
  assert (Hlen : concat pcms = click ++ repeat f0 (n + list_sum ks)).
  { subst pcms. cbn [concat]. rewrite <- app_assoc. f_equal. rewrite repeat_app. f_equal.
    clear. induction ks as [|k ks IH]; [reflexivity|]. cbn [map concat list_sum fold_right]. rewrite IH.
    fold (list_sum ks). now rewrite repeat_app. }
  assert (HL : lossy_signal 0 1 pcms = map restore_in_range (lossy ([0; 0; 0; 0; 9830; -9830] ++ repeat 0 (n + list_sum ks)))).
  { rewrite lossy_mono_0, Hlen, map_app. do 3 f_equal.
    clear. induction (n + list_sum ks)%nat; cbn [repeat map]; [reflexivity|]. now rewrite IHn0. }
  assert (HO : out = firstn (Z.to_nat (room 1 bufs)) (lossy_signal 0 1 pcms)).
  { unfold out. rewrite R. now rewrite Nat.mul_0_r. }
  assert (Hz : zlen (lossy_signal 0 1 pcms) = zlen (concat pcms)).
  { rewrite HL, Hlen. unfold zlen. rewrite map_length, length_lossy, !app_length, !repeat_length. reflexivity. }
  split.
  { rewrite HO. unfold zlen in *. rewrite firstn_length.
    assert (0 <= room 1 bufs) by (clear; unfold room; induction bufs; cbn [map fold_right]; [lia|]; rewrite Z.div_1_r; unfold zlen in *; lia). lia. }
  intros i Hi.
  assert (Hi2 : (i < length (lossy_signal 0 1 pcms))%nat /\ (i < Z.to_nat (room 1 bufs))%nat).
  { rewrite HO, firstn_length in Hi. lia. }
  split.
  { rewrite Hlen. rewrite app_nth2 by (cbn; lia). apply nth_repeat. }
  intros Hm. rewrite HO, nth_firstn_lt by apply Hi2. rewrite HL.
  destruct Hi2 as [Hi2 _]. rewrite HL, map_length, length_lossy, app_length, repeat_length in Hi2. cbn [length] in Hi2.
  replace (n + list_sum ks)%nat with (28 + (n + list_sum ks - 28))%nat by lia.
  destruct (lossy_click (n + list_sum ks - 28)) as (l & Hl & ->).
  rewrite map_app, app_nth2; rewrite map_length, Hl; [|lia]. rewrite map_map.
  set (F := fun k => restore_in_range (cycle k)).
  rewrite (nth_indep _ f0 (F 0%nat)) by (rewrite map_length, seq_length; lia). rewrite (map_nth F), seq_nth by lia.
  unfold F, cycle. replace (3 + (i - 34))%nat with (i - 31)%nat by lia.
  assert (H3 : ((i - 31) mod 6 <> 0 /\ (i - 31) mod 6 <> 3)%nat).
  { pose proof (Nat.div_mod i 3 ltac:(lia)). pose proof (Nat.mod_upper_bound i 3 ltac:(lia)).
    pose proof (Nat.div_mod (i - 31) 6 ltac:(lia)). lia. }
  pose proof (Nat.mod_upper_bound (i - 31) 6 ltac:(lia)) as B. revert B H3. generalize ((i - 31) mod 6)%nat.
  intros r B H3.
  assert (Hr : nth r [9679; 32767; 32767; 9679; -32767; -32767] 0 = 32767 \/
               nth r [9679; 32767; 32767; 9679; -32767; -32767] 0 = -32767).
  { do 6 (destruct r as [|r]; [cbn; lia|]). lia. }
  destruct Hr as [-> | ->]; [left|right]; apply B2SF_inj; vm_compute; reflexivity.
Qed.
Print Assumptions C54_click_rings_forever.
(** The recording of the click, three hundred silent samples and two more silent calls is
    accepted by both builds. *)
Example C54_applies : let pcms := (click ++ repeat f0 300) :: map (repeat f0) [100; 0; 50]%nat in
  recording_ok 1 pcms /\ no_long_gap 1 pcms /\
  forall p, match encode_all p (new_codec (mkInfo 8000 1) 0) pcms with Ok _ => True | _ => False end.
Proof.
  split; [|split; [apply short_no_gap; cbn; lia|]].
  - split; [lia|]. split; [vm_compute; discriminate|]. split; [|split; vm_compute; congruence]. repeat constructor.
  - intros []; vm_compute; exact I.
Qed.
