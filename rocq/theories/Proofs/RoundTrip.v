(** * Whole recordings: encode, rewind, decode *)
From Coq Require Import ZArith List Bool Lia.
From Verif Require Import Model.Base Model.F32 Model.Noise Model.Sample Model.BitStream
  Model.CircularStack Model.Frame Model.Adhoc Spec.Bits Spec.Codec Spec.Recording
  Proofs.BaseFacts Proofs.BitStreamFacts Proofs.BitLog Proofs.Rice Proofs.Headers
  Proofs.StreamOpsFacts Proofs.FrameFacts Proofs.EncodeFacts Proofs.DecodeFacts Proofs.FloatFacts Proofs.Predict.
Import ListNotations.
Open Scope Z_scope.

(** ** Decoding into a sequence of buffers *)
Definition blocks_of (ch : nat) (bufs : list (list f32)) : nat :=
  fold_right Nat.add 0%nat (map (fun b => length b / ch)%nat bufs).

Lemma interleave_min {A} (d : A) T k l : Forall (fun x => length x = T) l ->
  firstn (k * length l) (interleave d T l) = interleave d (Nat.min k T) l.
Proof.
  revert k l; induction T as [|T IH]; intros k l HL.
  - rewrite Nat.min_0_r. cbn [interleave]. now rewrite firstn_nil.
  - destruct k as [|k]; [reflexivity|]. cbn [Nat.min interleave Nat.mul].
    rewrite firstn_app, map_length.
    rewrite firstn_all2 by (rewrite map_length; lia). f_equal.
    replace (length l + k * length l - length l)%nat with (k * length (map (@tl A) l))%nat
      by (rewrite map_length; lia).
    apply IH. apply Forall_map. eapply Forall_impl; [|apply HL]. cbn. intros x Hx.
    destruct x; cbn in *; lia.
Qed.

Lemma skipn_plus {A} a b (l : list A) : skipn b (skipn a l) = skipn (a + b) l.
Proof. revert l; induction a; intros [|x l]; cbn [skipn Nat.add]; auto. apply skipn_nil. Qed.

(** What one decode call does to its buffer. *)
Definition call_result (scale : f32) (ch : nat) (T : nat) (rem : list (list f32)) (buf : list f32)
  : list f32 * option Z :=
  let k := Nat.min (length buf / ch) T in
  (map (fun x => fmul x scale) (interleave f0 k rem ++ skipn (k * ch) buf),
   if (0 <? k)%nat then Some (Z.of_nat (k * ch)) else None).

Lemma reported_call scale ch T rem buf :
  length rem = ch ->
  reported (call_result scale ch T rem buf) =
    map (fun x => fmul x scale) (interleave f0 (Nat.min (length buf / ch) T) rem).
Proof.
  intros HL. unfold reported, call_result. cbn [fst snd].
  set (k := Nat.min (length buf / ch) T).
  destruct (Nat.ltb_spec 0 k) as [Hk|Hk].
  - rewrite Nat2Z.id, map_app, firstn_app, firstn_all2.
    + rewrite map_length, interleave_len, HL, Nat.sub_diag. cbn [firstn]. apply app_nil_r.
    + rewrite map_length, interleave_len, HL. lia.
  - replace k with 0%nat by lia. reflexivity.
Qed.

Lemma decoding_reach_le p c info m rows rem R T :
  decoding p c info m rows rem R -> Forall (fun l => zlen l = T) rem -> Z.of_nat R <= T.
Proof.
  intros (Hi & HM & done & todo & ds & L & -> & HI & HRe & Hch & HR) HT.
  pose proof (remaining_sum p ds todo L (di_even _ _ _ _ _ _ _ HI) (di_ok _ _ _ _ _ _ _ HI) (di_ne _ _ _ _ _ _ _ HI)) as Q1.
  pose proof (length_remaining p ds todo (di_ok _ _ _ _ _ _ _ HI)) as LR.
  pose proof (di_ne _ _ _ _ _ _ _ HI) as HN. rewrite HR in Q1, LR.
  destruct rem as [|r rs]; [destruct ds; [congruence|discriminate]|].
  inversion Q1; inversion HT; subst. pose proof (reach_run_le 0 todo). lia.
Qed.

(** Buffers that do not ask for more than can be delivered without a gap, or a recording
    without gaps. *)
Lemma decode_all_spec p bufs c info m rows rem R T :
  decoding p c info m rows rem R -> Forall (fun l => zlen l = Z.of_nat T) rem ->
  length rem = Z.to_nat (si_channels info) ->
  let ch := Z.to_nat (si_channels info) in
  (blocks_of ch bufs <= R)%nat \/ R = T ->
  let k := Nat.min (blocks_of ch bufs) R in
  exists c' rs, decode_all p c bufs = Ok (c', rs) /\
    concat (map reported rs) = map (fun x => fmul x (ad_scale c)) (interleave f0 k rem) /\
    decoding p c' info m rows (map (skipn k) rem) (R - k) /\ same_setup c c'.
Proof.
  cbv zeta. revert c rem R T; induction bufs as [|b bufs IH]; intros c rem R T HD HT HL HG.
  - exists c, []. cbn [decode_all blocks_of map fold_right Nat.min interleave concat].
    split; [reflexivity|]. split; [reflexivity|]. split; [|apply same_setup_refl].
    rewrite Nat.sub_0_r.
    replace (map (skipn 0) rem) with rem; auto. rewrite <- (map_id rem) at 1. apply map_ext. reflexivity.
  - set (ch := Z.to_nat (si_channels info)) in *.
    destruct (decode_spec p c info m rows rem R b HD) as (c1 & R1 & E1 & D1 & S1 & HR1). fold ch in E1, D1, HR1.
    set (k1 := Nat.min (length b / ch) R) in *.
    pose proof (decoding_reach_le p c info m rows rem R _ HD HT) as HRT.
    assert (HT1 : Forall (fun l => zlen l = Z.of_nat (T - k1)) (map (skipn k1) rem)).
    { apply Forall_map. eapply Forall_impl; [|apply HT]. cbn. intros l Hl. rewrite zlen_skipn. lia. }
    pose proof (decoding_reach_le p c1 info m rows _ R1 _ D1 HT1) as HRT1.
    unfold blocks_of in HG. cbn [map fold_right] in HG. fold (blocks_of ch bufs) in HG.
    assert (ER1 : R1 = (R - k1)%nat).
    { destruct (Nat.le_gt_cases (length b / ch) R) as [Hle|Hgt].
      - rewrite HR1 by auto. subst k1. lia.
      - subst k1. lia. }
    destruct (IH c1 (map (skipn k1) rem) R1 (T - k1)%nat D1 HT1) as (c2 & rs & E2 & R2 & D2 & S2).
    { now rewrite map_length. }
    { subst k1. lia. }
    set (k2 := Nat.min (blocks_of ch bufs) R1) in *.
    assert (Ek : Nat.min (blocks_of ch (b :: bufs)) R = (k1 + k2)%nat).
    { unfold blocks_of in *. cbn [map fold_right]. subst k1 k2. lia. }
    exists c2, (call_result (ad_scale c) ch R rem b :: rs). cbn [decode_all]. rewrite E1. cbn [bind].
    rewrite E2. cbn [bind]. split; [reflexivity|]. rewrite Ek. cbn [map concat].
    rewrite reported_call by auto. fold k1. rewrite R2.
    pose proof S1 as (S1a & S1b & S1c & S1d). rewrite S1b, <- map_app, <- interleave_add.
    split; [reflexivity|]. split; [|eapply same_setup_trans; eauto].
    rewrite map_map in D2. replace (R - (k1 + k2))%nat with (R1 - k2)%nat by lia.
    replace (map (skipn (k1 + k2)) rem) with (map (fun x => skipn k2 (skipn k1 x)) rem); auto.
    apply map_ext. intros l. apply skipn_plus.
Qed.

(** ** Which frames can be written *)
Lemma frames_release rows : Forall (fun f => 1 <= fr_e f <= 15) rows -> Forall (frame_exp_ok Release) rows.
Proof. apply Forall_impl. intros f H _. apply exp_ok_release. lia. Qed.

Lemma In_column rows f n :
  In f (concat rows) -> Forall (fun row => length row = n) rows ->
  exists j, (j < n)%nat /\ In f (map (fun row => nth j row (make_frame None [])) rows).
Proof.
  intros HI HF. apply in_concat in HI. destruct HI as (row & H1 & H2).
  destruct (In_nth _ _ (make_frame None []) H2) as (j & Hj & <-). exists j.
  rewrite Forall_forall in HF. rewrite (HF _ H1) in Hj. split; auto.
  apply in_map_iff. exists row. auto.
Qed.
Lemma length_quant_calls inv base ch pcms :
  Forall (fun call => length call = Z.to_nat ch) (quant_calls inv base ch pcms).
Proof.
  revert base; induction pcms; intros base; cbn [quant_calls]; constructor; auto. apply length_quant_call.
Qed.
Lemma length_rows sts calls : Forall (fun call => length call = length sts) calls ->
  Forall (fun row => length row = length sts) (make_rows sts calls).
Proof.
  revert sts; induction calls as [|call calls IH]; intros sts H; cbn [make_rows]; constructor;
    inversion H as [|? ? H1 H2]; subst.
  - now apply length_make_row.
  - rewrite <- (length_next_sts sts call) by auto. apply IH. now rewrite length_next_sts.
Qed.

Lemma chan_frames_e st qss f : In f (chan_frames st qss) -> 1 <= fr_e f <= 15.
Proof.
  revert st; induction qss as [|qs qss IH]; intros st; cbn [chan_frames In]; [tauto|].
  intros [<-|H]; [apply make_frame_e|eauto].
Qed.
Lemma chan_frames_small_some t qss f :
  Forall (fun d => -32767 <= d <= 32767) (diffs t (concat qss)) ->
  In f (chan_frames (Some t) qss) -> fr_e f <= 14.
Proof.
  revert t; induction qss as [|qs qss IH]; intros t HD; cbn [chan_frames In]; [tauto|].
  cbn [concat] in HD. rewrite diffs_app in HD. apply Forall_app in HD. destruct HD as [D1 D2].
  intros [<-|H].
  - now apply (make_frame_tame_e (Some t)).
  - eapply IH; eauto.
Qed.
Lemma chan_frames_small qss f :
  match qss with [] => True | qs :: _ => 3 <= zlen qs end ->
  Forall (fun d => -32767 <= d <= 32767) (frame_diffs None (concat qss)) ->
  In f (chan_frames None qss) -> fr_e f <= 14.
Proof.
  destruct qss as [|qs qss]; intros H3 HD; cbn [chan_frames In]; [tauto|].
  cbn [frame_diffs concat] in HD.
  assert (EN : forall i, (i < 3)%nat -> nth i (qs ++ concat qss) 0 = nth i qs 0).
  { intros i Hi. apply app_nth1. unfold zlen in H3. lia. }
  rewrite !EN, skipn_app in HD by lia.
  replace (3 - length qs)%nat with 0%nat in HD by (unfold zlen in H3; lia). cbn [skipn] in HD.
  rewrite diffs_app in HD. apply Forall_app in HD. destruct HD as [D1 D2].
  intros [<-|H].
  - now apply (make_frame_tame_e None).
  - cbn [next_hist] in H. rewrite (first3_hist qs (0, 0, 0) H3) in H. eapply chan_frames_small_some; eauto.
Qed.

(** ** Signals *)
Lemma tame_diffs qs (P : Z -> Prop) :
  (forall t, (3 <= t < length qs)%nat ->
     P (nth t qs 0 - predict (nth (t - 3) qs 0) (nth (t - 2) qs 0) (nth (t - 1) qs 0))) ->
  Forall P (frame_diffs None qs).
Proof.
  cbn [frame_diffs]. intros H.
  destruct qs as [|a [|b [|c qs]]]; cbn [nth skipn diffs]; try constructor.
  cbn [nth skipn]. revert a b c H. induction qs as [|q qs IH]; intros a b c H; cbn [diffs]; constructor.
  - apply (H 3%nat). cbn [length]. lia.
  - cbn [shift]. apply IH. intros t Ht. specialize (H (S t)). cbn [length] in *.
    specialize (H ltac:(lia)). replace (S t - 3)%nat with (S (t - 3)) in H by lia.
    replace (S t - 2)%nat with (S (t - 2)) in H by lia. replace (S t - 1)%nat with (S (t - 1)) in H by lia.
    exact H.
Qed.

(** Channel [j] of the calls, call by call. *)
Definition chan_calls (inv : f32) (base : nat) (ch : Z) (pcms : list (list f32)) (j : nat) : list (list Z) :=
  map (fun call => nth j call []) (quant_calls inv base ch pcms).
Lemma quant_signal_calls inv ch pcms c : 0 <= c ->
  quant_signal inv ch pcms c = concat (chan_calls inv 0 ch pcms (Z.to_nat c)).
Proof. intros. unfold quant_signal, chan_calls. apply flat_map_concat_map. Qed.
Lemma chan_calls_facts inv base ch pcms j : 0 < ch -> (j < Z.to_nat ch)%nat ->
  Forall2 (fun qs pcm => Forall i16 qs /\ zlen qs = zlen pcm / ch) (chan_calls inv base ch pcms j) pcms.
Proof.
  intros Hch Hj. unfold chan_calls. revert base; induction pcms as [|pcm pcms IH]; intros base;
    cbn [quant_calls map]; constructor; auto.
  rewrite <- (Nat2Z.id j), nth_quant_call by lia.
  split; [apply quant_channel_i16|now apply zlen_quant_channel].
Qed.
Lemma zlen_chan_calls inv base ch pcms j : 0 < ch -> (j < Z.to_nat ch)%nat ->
  zlen (concat (chan_calls inv base ch pcms j)) = total_blocks ch pcms.
Proof.
  intros Hch Hj. unfold total_blocks.
  induction (chan_calls_facts inv base ch pcms j Hch Hj) as [|qs pcm l l' [_ H1] H IH]; auto.
  cbn [concat map fold_right]. rewrite zlen_app. lia.
Qed.
Lemma total_blocks_nonneg ch pcms : 0 < ch -> 0 <= total_blocks ch pcms.
Proof.
  intros. unfold total_blocks. induction pcms as [|a l IH]; cbn [map fold_right]; [lia|].
  pose proof (Z.div_pos (zlen a) ch (zlen_nonneg _) ltac:(lia)). lia.
Qed.
Lemma total_samples_blocks ch pcms : total_samples ch pcms = ch * total_blocks ch pcms.
Proof.
  unfold total_blocks. induction pcms as [|a l IH]; cbn [total_samples map fold_right]; [lia|]. rewrite IH. lia.
Qed.
Lemma total_samples_bound ch pcms : 0 < ch -> total_samples ch pcms <= zlen (concat pcms).
Proof.
  intros H. induction pcms as [|a l IH]; cbn [total_samples concat]; [unfold zlen; cbn; lia|].
  rewrite zlen_app. pose proof (Z.mul_div_le (zlen a) ch ltac:(lia)). lia.
Qed.

Lemma nth_repeat_None n j : nth j (repeat (@None hist) n) None = None.
Proof. revert j; induction n; destruct j; cbn; auto. Qed.
Lemma nth_repeat_dch n j : nth j (repeat (@None hist, @nil f32) n) (None, []) = (None, []).
Proof. revert j; induction n; destruct j; cbn; auto. Qed.
Lemma map_fst_repeat n : map fst (repeat (@None hist, @nil f32) n) = repeat None n.
Proof. induction n; cbn; congruence. Qed.

(** The frames of a recording. *)
Definition frames_of (inv : f32) (ch : Z) (pcms : list (list f32)) : list (list frame) :=
  make_rows (repeat None (Z.to_nat ch)) (quant_calls inv 0 ch pcms).

Lemma frames_column inv ch pcms j : (j < Z.to_nat ch)%nat ->
  map (fun row => nth j row (make_frame None [])) (frames_of inv ch pcms) =
    chan_frames None (chan_calls inv 0 ch pcms j).
Proof.
  intros Hj. unfold frames_of. rewrite make_rows_column.
  - now rewrite nth_repeat_None.
  - rewrite repeat_length. apply length_quant_calls.
  - now rewrite repeat_length.
Qed.
Lemma frames_in_channel inv ch pcms f : In f (concat (frames_of inv ch pcms)) ->
  exists j, (j < Z.to_nat ch)%nat /\ In f (chan_frames None (chan_calls inv 0 ch pcms j)).
Proof.
  intros H. destruct (In_column _ _ (Z.to_nat ch) H) as (j & Hj & Hf).
  - pose proof (length_rows (repeat None (Z.to_nat ch)) (quant_calls inv 0 ch pcms)) as L.
    rewrite repeat_length in L. apply L. apply length_quant_calls.
  - exists j. rewrite frames_column in Hf by auto. auto.
Qed.

Lemma first_call_3 inv ch pcms j : 0 < ch -> (j < Z.to_nat ch)%nat ->
  match pcms with [] => True | pcm :: _ => 3 * ch <= zlen pcm end ->
  match chan_calls inv 0 ch pcms j with [] => True | qs :: _ => 3 <= zlen qs end.
Proof.
  intros Hch Hj H3. pose proof (chan_calls_facts inv 0 ch pcms j Hch Hj) as F.
  inversion F as [|qs pcm l l' [_ H1] H E1 E2]; auto. subst. rewrite H1.
  apply Z.div_le_lower_bound; lia.
Qed.

Definition safe_build (p : profile) (inv : f32) (ch : Z) (pcms : list (list f32)) : Prop :=
  Forall (frame_exp_ok p) (concat (frames_of inv ch pcms)).
Lemma safe_release inv ch pcms : safe_build Release inv ch pcms.
Proof.
  apply frames_release. apply Forall_forall. intros f Hf.
  destruct (frames_in_channel _ _ _ _ Hf) as (j & Hj & H). eapply chan_frames_e; eauto.
Qed.
Lemma tame_fifteen qs : tame qs -> fifteen_bits qs.
Proof. intros H t Ht. specialize (H t Ht). lia. Qed.
Lemma safe_fifteen p inv ch pcms :
  recording_ok ch pcms -> (forall c, 0 <= c < ch -> fifteen_bits (quant_signal inv ch pcms c)) ->
  safe_build p inv ch pcms.
Proof.
  intros (Hch & H3 & _) HT. apply Forall_forall. intros f Hf _.
  destruct (frames_in_channel _ _ _ _ Hf) as (j & Hj & H).
  apply exp_ok_small. pose proof (chan_frames_e _ _ _ H).
  enough (fr_e f <= 14) by lia.
  eapply chan_frames_small; eauto.
  - now apply first_call_3.
  - specialize (HT (Z.of_nat j) ltac:(lia)). rewrite quant_signal_calls, Nat2Z.id in HT by lia.
    now apply tame_diffs.
Qed.

(** ** Recording *)
Lemma first_ok_rec ch pcms sts : 0 < ch ->
  match pcms with [] => True | pcm :: _ => 3 * ch <= zlen pcm end -> first_ok sts ch pcms.
Proof. intros Hch H. destruct pcms; cbn; auto. intros _. apply Z.div_le_lower_bound; lia. Qed.

Lemma recording_frames inv ch pcms : 0 < ch ->
  zlen (concat (frames_of inv ch pcms)) = ch * zlen pcms.
Proof.
  intros Hch.
  assert (G : forall base pcms sts, zlen sts = ch ->
    zlen (concat (make_rows sts (quant_calls inv base ch pcms))) = ch * zlen pcms).
  { clear -Hch. intros base pcms; revert base; induction pcms as [|pcm pcms IH]; intros base sts Hs;
      cbn [quant_calls make_rows concat].
    - change (zlen (@nil frame)) with 0. change (zlen (@nil (list f32))) with 0. lia.
    - assert (L : length sts = length (quant_call inv base ch pcm)).
      { rewrite length_quant_call. unfold zlen in Hs. lia. }
      rewrite zlen_app, IH by (unfold zlen; rewrite length_next_sts; auto).
      rewrite zlen_cons. assert (zlen (make_row sts (quant_call inv base ch pcm)) = ch); [|lia].
      unfold zlen. rewrite length_make_row; auto. }
  apply G. rewrite zlen_repeat. lia.
Qed.
Lemma recording_bits inv ch pcms : recording_ok ch pcms ->
  zlen (flat_map fr_bits (concat (frames_of inv ch pcms))) + 512 < 2 ^ 64.
Proof.
  intros (Hch & H3 & Hn & Hf & Hs).
  assert (Ls : zlen (repeat (@None hist) (Z.to_nat ch)) = ch) by (rewrite zlen_repeat; lia).
  pose proof (rows_bits inv 0 ch pcms _ Hch Ls (first_ok_rec ch pcms _ Hch H3)) as B.
  unfold frames_of. pose proof (total_samples_bound ch pcms Hch).
  change (2 ^ 58) with 288230376151711744 in Hs.
  rewrite pow2_64. rewrite pow2_32 in Hf. pose proof (zlen_nonneg pcms).
  assert (ch < 4294967296 \/ pcms = []) as [Hc | ->].
  { destruct pcms; auto. left. rewrite zlen_cons in Hf. pose proof (zlen_nonneg pcms). nia. }
  - destruct (existsb _ _); lia.
  - cbn [quant_calls make_rows concat flat_map]. change (zlen (@nil bool)) with 0. lia.
Qed.
Lemma recording_chunks ch pcms : recording_ok ch pcms -> Forall (fun pcm => zlen pcm / ch <= 65535) pcms.
Proof.
  intros (Hch & H3 & Hn & Hf & Hs). eapply Forall_impl; [|apply Hn]. cbv beta. intros pcm Hp.
  assert (zlen pcm / ch < 65536) by (apply Z.div_lt_upper_bound; lia). lia.
Qed.

(** Encoding a recording that the build can encode. *)
Lemma encode_recording p info level pcms :
  let ch := si_channels info in
  let c0 := new_codec info level in
  recording_ok ch pcms -> safe_build p (ad_inv_scale c0) ch pcms ->
  exists c1, encode_all p c0 pcms = Ok c1 /\ same_setup c0 c1 /\
    enc_rel c1 info (ad_inv_scale c0) (concat (frames_of (ad_inv_scale c0) ch pcms))
      (final_sts (repeat None (Z.to_nat ch)) (quant_calls (ad_inv_scale c0) 0 ch pcms))
      (total_draws ch pcms) /\
    mem_ok (bs_binary (as_stream (ad_stream c1))) (concat (frames_of (ad_inv_scale c0) ch pcms)) /\
    rows_ok p (repeat None (Z.to_nat ch)) (frames_of (ad_inv_scale c0) ch pcms).
Proof.
  intros ch c0 HR He. set (inv := ad_inv_scale c0) in *.
  pose proof (recording_bits inv ch pcms HR) as Hbits. pose proof (recording_chunks ch pcms HR) as Hn'.
  assert (Hn2 : Forall (fun pcm => zlen pcm / ch <= 131007) pcms) by (eapply Forall_impl; [|exact Hn']; intros; cbv beta in *; lia).
  destruct HR as (Hch & H3 & Hn & Hf & Hs). pose proof (recording_frames inv ch pcms Hch) as Hnum.
  set (sts := repeat (@None hist) (Z.to_nat ch)).
  assert (Ls : zlen sts = ch) by (subst sts; rewrite zlen_repeat; lia).
  assert (H3' : first_ok sts ch pcms) by now apply first_ok_rec.
  destruct (encode_all_spec p pcms c0 info inv [] sts 0) as (c1 & E & R & S); auto.
  { apply new_codec_rel. lia. }
  { cbn [app]. unfold frames_of in Hbits. fold sts in Hbits. fold ch. lia. }
  exists c1. split; [exact E|]. split; [exact S|]. cbn [app] in R. fold ch in R.
  fold (frames_of inv ch pcms) in R. cbn [Nat.add] in R.
  split; [exact R|]. split.
  - destruct R as [_ _ _ _ HB _ _]. split; [|split; [|split]].
    + apply HB.
    + unfold bits_of. eapply holds_len; eauto.
    + exact Hbits.
    + rewrite Hnum. exact Hf.
  - unfold frames_of. fold sts. apply make_rows_ok; auto.
    unfold same_shape. clear. induction sts; constructor; tauto.
Qed.
(** A recording the build did encode. *)
Lemma encoded_safe p info level pcms c1 :
  let ch := si_channels info in
  let c0 := new_codec info level in
  recording_ok ch pcms -> encode_all p c0 pcms = Ok c1 -> safe_build p (ad_inv_scale c0) ch pcms.
Proof.
  intros ch c0 HR E. set (inv := ad_inv_scale c0) in *.
  pose proof (recording_bits inv ch pcms HR) as Hbits. pose proof (recording_chunks ch pcms HR) as Hn'.
  assert (Hn2 : Forall (fun pcm => zlen pcm / ch <= 131007) pcms) by (eapply Forall_impl; [|exact Hn']; intros; cbv beta in *; lia).
  destruct HR as (Hch & H3 & Hn & Hf & Hs).
  unfold safe_build, frames_of. eapply (encode_all_exp p pcms c0 info inv []); eauto.
  - apply new_codec_rel. lia.
  - now apply first_ok_rec.
  - cbn [app]. unfold frames_of in Hbits. fold ch. lia.
Qed.

Lemma recording_recorded p info level pcms c1 :
  let ch := si_channels info in
  let inv := ad_inv_scale (new_codec info level) in
  recording_ok ch pcms ->
  mem_ok (bs_binary (as_stream (ad_stream c1))) (concat (frames_of inv ch pcms)) ->
  rows_ok p (repeat None (Z.to_nat ch)) (frames_of inv ch pcms) ->
  recorded p info (bs_binary (as_stream (ad_stream c1))) (frames_of inv ch pcms).
Proof. intros ch inv (Hch & _) HM HR. split; [exact HM|]. split; [exact HR|]. exact Hch. Qed.

(** Row sizes. *)
Lemma frames_sizes inv ch pcms : recording_ok ch pcms ->
  Forall2 (fun row pcm => row_n row = zlen pcm / ch) (frames_of inv ch pcms) pcms.
Proof.
  intros (Hch & H3 & _). unfold frames_of.
  assert (H3' : first_ok (repeat None (Z.to_nat ch)) ch pcms) by now apply first_ok_rec.
  assert (Hs : zlen (repeat (@None hist) (Z.to_nat ch)) = ch) by (rewrite zlen_repeat; lia).
  revert H3' Hs. generalize (repeat (@None hist) (Z.to_nat ch)) as sts, 0%nat as base. clear H3.
  induction pcms as [|pcm pcms IH]; intros sts base H3 Hs; cbn [quant_calls make_rows]; constructor.
  - unfold make_row. destruct sts as [|st sts]; [change (zlen (@nil (option hist))) with 0 in Hs; lia|].
    unfold quant_call. replace (range ch) with (range (ch - 1 + 1)) by (f_equal; lia). rewrite range_shift by lia.
    cbn [map zipw row_n]. rewrite make_frame_size.
    + now apply zlen_quant_channel.
    + intros ->. rewrite zlen_quant_channel by lia. apply H3. now left.
  - apply IH.
    + destruct pcms; cbn; auto. intros X; now apply next_sts_some in X.
    + unfold zlen. rewrite length_next_sts; [exact Hs|]. rewrite length_quant_call. unfold zlen in Hs. lia.
Qed.
Lemma frames_reach inv ch pcms run : recording_ok ch pcms ->
  reach_run run (frames_of inv ch pcms) = audible ch run pcms.
Proof.
  intros HR. pose proof (frames_sizes inv ch pcms HR) as F. destruct HR as (Hch & _). revert run.
  induction F as [|row pcm rows pcms' E F IH]; intros run; [reflexivity|]. cbn [reach_run audible].
  rewrite E. pose proof (zlen_nonneg pcm). destruct (Z.ltb_spec (zlen pcm) ch) as [Hl|Hl].
  - rewrite Z.div_small by lia. cbn [Z.eqb]. apply IH.
  - assert (1 <= zlen pcm / ch) by (apply Z.div_le_lower_bound; lia).
    destruct (Z.eqb_spec (zlen pcm / ch) 0); [lia|]. rewrite IH. reflexivity.
Qed.
Lemma audible_all ch pcms : 0 < ch -> no_long_gap ch pcms -> audible ch 0 pcms = total_blocks ch pcms.
Proof.
  intros Hch. unfold total_blocks.
  assert (G : forall pcms e, no_long_gap ch (e ++ pcms) -> Forall (fun pcm => zlen pcm < ch) e ->
    audible ch (length e) pcms = fold_right Z.add 0 (map (fun pcm => zlen pcm / ch) pcms)).
  { clear pcms. induction pcms as [|pcm pcms IH]; intros e HG HE; [reflexivity|]. cbn [audible map fold_right].
    pose proof (zlen_nonneg pcm). destruct (Z.ltb_spec (zlen pcm) ch) as [Hl|Hl].
    - rewrite Z.div_small by lia. rewrite <- (IH (e ++ [pcm])).
      + rewrite app_length. cbn [length]. now rewrite Nat.add_1_r.
      + now rewrite <- app_assoc.
      + apply Forall_app; auto.
    - destruct (Nat.leb_spec (length e) 8).
      + rewrite <- (IH []); auto. cbn [app]. intros a b c ->. apply (HG (e ++ pcm :: a)). now rewrite <- app_assoc.
      + exfalso. specialize (HG [] e (pcm :: pcms) eq_refl HE ltac:(lia)). inversion HG; subst. lia. }
  intros HG. apply (G pcms []); auto.
Qed.
Lemma audible_le ch run pcms : 0 < ch -> 0 <= audible ch run pcms <= total_blocks ch pcms.
Proof.
  intros Hch. unfold total_blocks. revert run; induction pcms as [|pcm pcms IH]; intros run;
    cbn [audible map fold_right]; [lia|].
  pose proof (Z.div_pos (zlen pcm) ch (zlen_nonneg _) Hch).
  pose proof (total_blocks_nonneg ch pcms Hch) as N. unfold total_blocks in N.
  destruct (zlen pcm <? ch); [specialize (IH (S run)); lia|]. specialize (IH 0%nat).
  destruct (run <=? 8)%nat; lia.
Qed.

(** ** What comes out *)
Lemma output_len p inv ch pcms :
  0 < ch -> match pcms with [] => True | pcm :: _ => 3 * ch <= zlen pcm end ->
  rows_ok p (repeat None (Z.to_nat ch)) (frames_of inv ch pcms) ->
  length (full_output ch (frames_of inv ch pcms)) = Z.to_nat ch /\
  Forall (fun l => zlen l = total_blocks ch pcms) (full_output ch (frames_of inv ch pcms)).
Proof.
  intros Hch H3 HO. rewrite <- map_fst_repeat in HO.
  assert (L : length (full_output ch (frames_of inv ch pcms)) = Z.to_nat ch).
  { unfold full_output. rewrite (length_remaining p) by auto. apply repeat_length. }
  split; auto. apply Forall_forall. intros l Hl.
  destruct (In_nth _ _ [] Hl) as (j & Hj & <-). rewrite L in Hj.
  unfold full_output. rewrite (remaining_column p) by (auto; rewrite repeat_length; auto).
  rewrite nth_repeat_dch. cbn [fst snd app]. rewrite frames_column by auto.
  rewrite chan_floats_len.
  - now apply zlen_chan_calls.
  - intros _. now apply first_call_3.
Qed.

Lemma list_ext {A} (d : A) l l' : length l = length l' ->
  (forall j, (j < length l)%nat -> nth j l d = nth j l' d) -> l = l'.
Proof. intros. now apply (nth_ext l l' d d). Qed.

Lemma quant_signal_range inv ch pcms c : Forall (fun q => -32767 <= q <= 32767) (quant_signal inv ch pcms c).
Proof.
  unfold quant_signal. generalize 0%nat. induction pcms as [|pcm pcms IH]; intros base; cbn [quant_calls flat_map]; auto.
  apply Forall_app. split; auto.
  destruct (nth_in_or_default (Z.to_nat c) (quant_call inv base ch pcm) []) as [H|H]; rewrite ?H; auto.
  apply in_map_iff in H. destruct H as (c' & <- & _). unfold quant_channel.
  apply Forall_forall. intros x Hx. apply in_map_iff in Hx. destruct Hx as (k & <- & _). apply truncate_range.
Qed.

Lemma output_lossy p inv ch pcms :
  0 < ch -> match pcms with [] => True | pcm :: _ => 3 * ch <= zlen pcm end ->
  rows_ok p (repeat None (Z.to_nat ch)) (frames_of inv ch pcms) ->
  full_output ch (frames_of inv ch pcms) =
    map (fun c => map restore_in_range (lossy (quant_signal inv ch pcms c))) (range ch).
Proof.
  intros Hch H3 HO. destruct (output_len p inv ch pcms Hch H3 HO) as [L _].
  rewrite <- map_fst_repeat in HO.
  apply (list_ext []). { now rewrite L, map_length, length_range. }
  intros j Hj. rewrite L in Hj.
  unfold full_output. rewrite (remaining_column p) by (auto; rewrite repeat_length; auto).
  rewrite nth_repeat_dch. cbn [fst snd app]. rewrite frames_column by auto.
  rewrite (nth_indep _ [] (map restore_in_range (lossy (quant_signal inv ch pcms 0))))
    by (rewrite map_length, length_range; auto).
  rewrite (map_nth (fun c => map restore_in_range (lossy (quant_signal inv ch pcms c)))).
  rewrite <- (Nat2Z.id j) at 2. rewrite nth_range by lia.
  pose proof (quant_signal_range inv ch pcms (Z.of_nat j)) as QR.
  rewrite quant_signal_calls, Nat2Z.id in * by lia.
  pose proof (first_call_3 inv ch pcms j Hch Hj H3) as F3.
  destruct (chan_calls inv 0 ch pcms j) as [|qs qss]; [reflexivity|].
  rewrite chan_floats_none by auto. unfold lossy. rewrite map_app. f_equal.
  apply map_ext_in. intros q Hq. symmetry. apply clamp_normalize.
  rewrite Forall_forall in QR. apply QR. rewrite <- (firstn_skipn 3 (concat (qs :: qss))).
  apply in_or_app. now left.
Qed.

(** When no residual is limited the output is the quantised signal. *)
Lemma lossy_tame qs : Forall i16 qs -> tame qs -> lossy qs = qs.
Proof.
  intros H16 HT. unfold lossy. rewrite reconstruct_exact.
  - apply firstn_skipn.
  - rewrite <- (firstn_skipn 3 qs) in H16. apply Forall_app in H16. tauto.
  - apply (tame_diffs qs (fun d => -32767 <= d <= 32766)). exact HT.
Qed.
Lemma restored_tame qs : Forall (fun q => -32767 <= q <= 32767) qs -> tame qs ->
  map restore_in_range (lossy qs) = map restore qs.
Proof.
  intros HR HT. rewrite lossy_tame; auto.
  - apply map_ext_in. intros q Hq. rewrite Forall_forall in HR. now apply clamp_normalize, HR.
  - eapply Forall_impl; [|apply HR]. unfold i16. intros; lia.
Qed.
Lemma decoded_tame level ch pcms :
  (forall c, 0 <= c < ch -> tame (quant_signal (inv_gain level) ch pcms c)) ->
  lossy_signal level ch pcms = decoded_signal level ch pcms.
Proof.
  intros HT. unfold lossy_signal, decoded_signal, output_of. f_equal.
  apply map_ext_in. intros c Hc. apply in_range in Hc. f_equal.
  apply restored_tame; auto using quant_signal_range.
Qed.

Lemma map_interleave {A B} (f : A -> B) d d' T l : Forall (fun x => length x = T) l ->
  map f (interleave d T l) = interleave d' T (map (map f) l).
Proof.
  revert l; induction T as [|T IH]; intros l H; cbn [interleave]; auto.
  rewrite map_app, IH.
  - f_equal.
    + rewrite !map_map. apply map_ext_in. intros x Hx. rewrite Forall_forall in H. specialize (H x Hx).
      destruct x; [discriminate|reflexivity].
    + f_equal. rewrite !map_map. apply map_ext. intros []; reflexivity.
  - apply Forall_map. eapply Forall_impl; [|apply H]. cbn. intros []; cbn; intros; lia.
Qed.

Lemma new_codec_scale info level : 0 <= level -> ad_scale (new_codec info level) = gain level.
Proof.
  intros H. cbn [new_codec ad_with_level ad_scale]. unfold gain, zclamp.
  destruct (Z.ltb_spec level 0); [lia|].
  destruct (Z.ltb_spec 10 level).
  - now rewrite Z.min_r, Z.shiftl_1_l by lia.
  - now rewrite Z.min_l, Z.shiftl_1_l by lia.
Qed.
Lemma new_codec_inv info level : 0 <= level -> ad_inv_scale (new_codec info level) = inv_gain level.
Proof.
  intros H. unfold inv_gain. rewrite <- (new_codec_scale info) by auto. reflexivity.
Qed.

(** ** The law for any recording the build can encode *)
Lemma room_blocks ch bufs : 0 < ch -> room ch bufs = ch * Z.of_nat (blocks_of (Z.to_nat ch) bufs).
Proof.
  intros H. unfold room, blocks_of. induction bufs as [|b bufs IH]; cbn [map fold_right]; [lia|].
  rewrite IH, Nat2Z.inj_add, Nat2Z.inj_div, Z2Nat.id by lia. unfold zlen. lia.
Qed.

Lemma zlen_output level ch pcms value : 0 < ch ->
  zlen (output_of level ch pcms value) = ch * total_blocks ch pcms.
Proof.
  intros H. unfold output_of, zlen. rewrite interleave_len, map_length, length_range.
  pose proof (total_blocks_nonneg ch pcms H). lia.
Qed.

(** A codec that is decoding this recording: [done] blocks were delivered, [R] more will be
    before decode finds nothing. *)
Definition playing (p : profile) (c : adhoc) (info : stream_info) (level : Z) (pcms : list (list f32))
  (done R : nat) : Prop :=
  exists m rows,
    decoding p c info m rows (map (skipn done) (full_output (si_channels info) rows)) R /\
    recorded p info m rows /\
    full_output (si_channels info) rows =
      map (fun x => map restore_in_range (lossy (quant_signal (inv_gain level) (si_channels info) pcms x)))
          (range (si_channels info)) /\
    Forall (fun l => zlen l = total_blocks (si_channels info) pcms) (full_output (si_channels info) rows) /\
    reach_run 0 rows = audible (si_channels info) 0 pcms /\
    (Z.of_nat done <= total_blocks (si_channels info) pcms) /\
    ad_scale c = gain level.

Lemma map_skipn_0 {A} (l : list (list A)) : map (skipn 0) l = l.
Proof. rewrite <- (map_id l) at 2. apply map_ext. reflexivity. Qed.

Lemma encoded_playing p info level pcms c1 :
  0 <= level -> recording_ok (si_channels info) pcms ->
  encode_all p (new_codec info level) pcms = Ok c1 ->
  playing p (ad_init c1) info level pcms 0 (Z.to_nat (audible (si_channels info) 0 pcms)).
Proof.
  intros Hlv HR E. pose proof (encoded_safe p info level pcms c1 HR E) as HS.
  destruct (encode_recording p info level pcms HR HS) as (c1' & E' & S & R & HM & HO).
  rewrite E in E'. injection E' as <-.
  pose proof (recording_recorded p info level pcms c1 HR HM HO) as HRec.
  pose proof (encoded_decoding p c1 info _ _ _ _ R HRec) as HD.
  rewrite (new_codec_inv info level Hlv) in *. set (ch := si_channels info) in *.
  pose proof (frames_reach (inv_gain level) ch pcms 0 HR) as HRe.
  destruct HR as (Hch & H3 & Hn & Hf & Hs).
  destruct (output_len p (inv_gain level) ch pcms Hch H3 HO) as [L HL].
  exists (bs_binary (as_stream (ad_stream c1))), (frames_of (inv_gain level) ch pcms). fold ch.
  rewrite map_skipn_0. rewrite HRe in HD.
  split; [exact HD|]. split; [exact HRec|]. split; [|split; [exact HL|split; [exact HRe|split]]].
  - apply (output_lossy p); auto.
  - apply total_blocks_nonneg; auto.
  - cbn [ad_init ad_scale]. destruct S as (_ & -> & _). now apply new_codec_scale.
Qed.

Lemma playing_decode p c info level pcms done R bufs :
  playing p c info level pcms done R ->
  let ch := si_channels info in
  let T := Z.to_nat (total_blocks ch pcms) in
  room ch bufs <= ch * Z.of_nat R \/ (R = T - done)%nat ->
  let k := Nat.min (blocks_of (Z.to_nat ch) bufs) R in
  exists c' rs, decode_all p c bufs = Ok (c', rs) /\
    concat (map reported rs) =
      firstn (Z.to_nat (room ch bufs)) (skipn (Z.to_nat ch * done) (lossy_signal level ch pcms)) /\
    playing p c' info level pcms (done + k) (R - k).
Proof.
  intros (m & rows & HD & HRec & HO & HL & HRe & Hd & Hsc) ch T HG k. fold ch in HD, HO, HL, HRe, Hd.
  assert (Hch : 0 < ch) by apply HRec.
  assert (Hlen : length (full_output ch rows) = Z.to_nat ch) by (rewrite HO, map_length, length_range; auto).
  assert (HT : Forall (fun l => zlen l = Z.of_nat (T - done)) (map (skipn done) (full_output ch rows))).
  { apply Forall_map. eapply Forall_impl; [|apply HL]. cbv beta. intros l Hl. rewrite zlen_skipn. subst T. lia. }
  pose proof (decoding_reach_le _ _ _ _ _ _ _ _ HD HT) as HRT.
  rewrite room_blocks in HG by auto.
  destruct (decode_all_spec p bufs c info m rows _ R (T - done) HD HT) as (c' & rs & E & RR & D & S).
  { rewrite map_length. exact Hlen. }
  { fold ch. destruct HG as [HG|HG]; [left; nia|right; auto]. }
  fold ch in RR, D. fold k in RR, D.
  exists c', rs. split; [exact E|]. split.
  - rewrite RR, Hsc. 
    assert (EL : lossy_signal level ch pcms = map (fun x => fmul x (gain level)) (interleave f0 T (full_output ch rows))).
    { rewrite (map_interleave _ f0 f0).
      - unfold lossy_signal, output_of. fold T. rewrite HO, map_map. reflexivity.
      - eapply Forall_impl; [|apply HL]. cbv beta. intros l Hl. subst T. unfold zlen in Hl. lia. }
    rewrite EL. rewrite skipn_map, firstn_map. f_equal.
    replace T with (done + (T - done))%nat at 1 by (subst T; lia).
    rewrite interleave_add, skipn_app, skipn_all2 by (rewrite interleave_len, Hlen; lia).
    rewrite interleave_len, Hlen. replace (Z.to_nat ch * done - done * Z.to_nat ch)%nat with 0%nat by lia.
    cbn [app skipn]. rewrite room_blocks by auto.
    replace (Z.to_nat (ch * Z.of_nat (blocks_of (Z.to_nat ch) bufs)))
      with (blocks_of (Z.to_nat ch) bufs * length (map (skipn done) (full_output ch rows)))%nat
      by (rewrite map_length, Hlen; lia).
    rewrite interleave_min.
    + f_equal. subst k. destruct HG as [HG|HG]; nia.
    + apply Forall_map. eapply Forall_impl; [|apply HL]. cbv beta. intros l Hl. rewrite skipn_length.
      subst T. unfold zlen in Hl. lia.
  - exists m, rows. fold ch. rewrite map_map in D.
    replace (map (skipn (done + k)) (full_output ch rows))
      with (map (fun x => skipn k (skipn done x)) (full_output ch rows))
      by (apply map_ext; intros; apply skipn_plus).
    destruct S as (_ & S2 & _).
    split; [exact D|]. split; [exact HRec|]. split; [exact HO|]. split; [exact HL|]. split; [exact HRe|]. split.
    + subst k T. lia.
    + congruence.
Qed.

(** One call, wherever the codec stands. *)
Lemma playing_call p c info level pcms done R buf :
  playing p c info level pcms done R ->
  let ch := si_channels info in
  let k := Nat.min (length buf / Z.to_nat ch) R in
  exists c' buf' R', ad_decode p c buf = Ok (c', buf', if (0 <? k)%nat then Some (ch * Z.of_nat k) else None) /\
    firstn (Z.to_nat (ch * Z.of_nat k)) buf' =
      firstn (Z.to_nat (ch * Z.of_nat k)) (skipn (Z.to_nat ch * done) (lossy_signal level ch pcms)) /\
    playing p c' info level pcms (done + k) R'.
Proof.
  intros HP ch k. pose proof HP as (m & rows & HD & HRec & HO & HL & HRe & Hd & Hsc). fold ch in HD, HO, HL, HRe, Hd.
  assert (Hch : 0 < ch) by apply HRec. set (T := Z.to_nat (total_blocks ch pcms)).
  assert (HT : Forall (fun l => zlen l = Z.of_nat (T - done)) (map (skipn done) (full_output ch rows))).
  { apply Forall_map. eapply Forall_impl; [|apply HL]. cbv beta. intros l Hl. rewrite zlen_skipn. subst T. lia. }
  pose proof (decoding_reach_le _ _ _ _ _ _ _ _ HD HT) as HRT.
  assert (Hlen : length (full_output ch rows) = Z.to_nat ch) by (rewrite HO, map_length, length_range; auto).
  destruct (decode_spec p c info m rows _ R buf HD) as (c' & R' & E & D & S & _). fold ch in E, D. fold k in E, D.
  eexists. eexists. exists R'. split; [rewrite E; repeat f_equal; destruct (0 <? k)%nat; auto; f_equal; lia|].
  assert (EL : lossy_signal level ch pcms = map (fun x => fmul x (gain level)) (interleave f0 T (full_output ch rows))).
  { rewrite (map_interleave _ f0 f0).
    - unfold lossy_signal, output_of. fold T. rewrite HO, map_map. reflexivity.
    - eapply Forall_impl; [|apply HL]. cbv beta. intros l Hl. subst T. unfold zlen in Hl. lia. }
  split.
  - rewrite EL, Hsc, skipn_map, !firstn_map. f_equal.
    replace T with (done + (T - done))%nat at 1 by (subst T; lia).
    rewrite interleave_add, skipn_app, (skipn_all2 (n := Z.to_nat ch * done)) by (rewrite interleave_len, Hlen; lia).
    rewrite interleave_len, Hlen. replace (Z.to_nat ch * done - done * Z.to_nat ch)%nat with 0%nat by lia.
    cbn [app skipn].
    replace (Z.to_nat (ch * Z.of_nat k)) with (k * length (map (skipn done) (full_output ch rows)))%nat at 2
      by (rewrite map_length, Hlen; lia).
    rewrite interleave_min.
    + replace (Nat.min k (T - done)) with k by (subst k; lia).
      rewrite firstn_app, firstn_all2 by (rewrite interleave_len, map_length, Hlen; lia).
      rewrite interleave_len, map_length, Hlen.
      replace (Z.to_nat (ch * Z.of_nat k) - k * Z.to_nat ch)%nat with 0%nat by lia. apply app_nil_r.
    + apply Forall_map. eapply Forall_impl; [|apply HL]. cbv beta. intros l Hl. rewrite skipn_length.
      subst T. unfold zlen in Hl. lia.
  - exists m, rows. fold ch. rewrite map_map in D.
    replace (map (skipn (done + k)) (full_output ch rows))
      with (map (fun x => skipn k (skipn done x)) (full_output ch rows))
      by (apply map_ext; intros; apply skipn_plus).
    destruct S as (_ & S2 & _).
    split; [exact D|]. split; [exact HRec|]. split; [exact HO|]. split; [exact HL|]. split; [exact HRe|]. split.
    + subst k T. lia.
    + congruence.
Qed.

Lemma playing_rewind p c info level pcms done R :
  playing p c info level pcms done R ->
  playing p (ad_init c) info level pcms 0 (Z.to_nat (audible (si_channels info) 0 pcms)).
Proof.
  intros (m & rows & HD & HRec & HO & HL & HRe & Hd & Hsc). exists m, rows. rewrite map_skipn_0.
  pose proof (rewind_decoding p c info m rows _ _ HD HRec) as HD'. rewrite HRe in HD'.
  split; [exact HD'|]. split; [exact HRec|]. split; [exact HO|]. split; [exact HL|].
  split; [exact HRe|]. split; [lia|exact Hsc].
Qed.

Theorem encode_tame p info level pcms :
  0 <= level -> recording_ok (si_channels info) pcms ->
  (forall c, 0 <= c < si_channels info -> fifteen_bits (quant_signal (inv_gain level) (si_channels info) pcms c)) ->
  exists c1, encode_all p (new_codec info level) pcms = Ok c1.
Proof.
  intros Hlv HR HT. rewrite <- (new_codec_inv info) in HT by auto.
  pose proof (safe_fifteen p _ _ _ HR HT) as HS.
  destruct (encode_recording p info level pcms HR HS) as (c1 & E & _). eauto.
Qed.
Theorem encode_release info level pcms :
  recording_ok (si_channels info) pcms ->
  exists c1, encode_all Release (new_codec info level) pcms = Ok c1.
Proof.
  intros HR. destruct (encode_recording Release info level pcms HR (safe_release _ _ _)) as (c1 & E & _). eauto.
Qed.

(** ** The closed-form condition *)
Lemma smooth_tame qs : Forall (fun q => -32767 <= q <= 32767) qs -> smooth qs -> tame qs.
Proof.
  intros HR HS t Ht. specialize (HS t Ht).
  assert (B : forall i, (i < length qs)%nat -> -32767 <= nth i qs 0 <= 32767).
  { intros i Hi. rewrite Forall_forall in HR. apply HR. now apply nth_In. }
  pose proof (predict_close (nth (t - 3) qs 0) (nth (t - 2) qs 0) (nth (t - 1) qs 0)) as P.
  pose proof (B (t - 3)%nat ltac:(lia)). pose proof (B (t - 2)%nat ltac:(lia)). pose proof (B (t - 1)%nat ltac:(lia)).
  specialize (P ltac:(lia) ltac:(lia) ltac:(lia)). lia.
Qed.
