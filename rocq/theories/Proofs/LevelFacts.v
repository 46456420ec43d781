(** * Any quantised calls come from a recording at level 0 *)
From Coq Require Import ZArith List Bool Lia Reals Lra.
From Flocq Require Import Core BinarySingleNaN.
From Verif Require Import Model.Base Model.F32 Model.Noise Model.Sample Model.BitStream Model.Frame Model.Adhoc Spec.Codec Spec.Recording Spec.Levels
  Proofs.BaseFacts Proofs.FloatFacts Proofs.Predict Proofs.BitStreamFacts Proofs.BitLog Proofs.Headers Proofs.FrameFacts Proofs.EncodeFacts Proofs.DecodeFacts
  Proofs.RoundTrip Proofs.SignalFacts Proofs.StreamOpsFacts.
Import ListNotations.
Open Scope Z_scope.

(** ** A sample for each 16-bit value *)
Section Sample.
Open Scope R_scope.
Definition sample_of (q : Z) : f32 := fdiv (f32_of_Z (2 * q + Z.sgn q)) (f32_of_Z 65534).
Lemma quantise_sample q : (-32767 <= q <= 32767)%Z -> quantise (sample_of q) = q.
Proof.
  intros Hq. destruct (Z.eq_dec q 32767) as [->|H1]; [vm_compute; reflexivity|].
  destruct (Z.eq_dec q (-32767)) as [->|H2]; [vm_compute; reflexivity|].
  destruct (Z.eq_dec q 0) as [->|H0]; [vm_compute; reflexivity|].
  unfold sample_of. set (m := (2 * q + Z.sgn q)%Z).
  assert (Hm : (Z.abs m <= 65533)%Z) by (unfold m; lia).
  destruct (f32_of_Z_R m ltac:(lia)) as [Fm Vm]. destruct (f32_of_Z_R 65534 ltac:(lia)) as [Fd Vd].
  assert (Bm : Rabs (IZR m) <= 65533) by (rewrite <- abs_IZR; now apply IZR_le).
  assert (Bd : Rabs (IZR m / 65534) < 1).
  { unfold Rdiv. rewrite Rabs_mult, (Rabs_pos_eq (/ 65534)) by lra. lra. }
  destruct (fdiv_E (f32_of_Z m) (f32_of_Z 65534) 0 Fm) as [Fs Es]; [rewrite Vd; lra|lia| |].
  { rewrite Vm, Vd. exact Bd. }
  rewrite Vm, Vd in Es. change (bpow radix2 (0 - 25)) with (/ 33554432) in Es. apply Rabs_le_inv in Es.
  set (x := fdiv (f32_of_Z m) (f32_of_Z 65534)) in *. clearbody x.
  assert (Bx : -1 <= val x <= 1).
  { apply Rabs_le_inv in Bm. lra. }
  destruct (fclamp_R x Fs) as [Fc Vc]. rewrite Rmin_right, Rmax_right in Vc by (rewrite ?Rmin_right; lra).
  destruct (scaled_R (fclamp x fm1 f1) Fc) as (Fy & By & Ey); [rewrite Vc; lra|].
  change (quantise x) with (truncate_sample x). unfold truncate_sample. rewrite as_i16_R by (auto; lra).
  set (y := val (fmul (fclamp x fm1 f1) (f32_of_Z 32767))) in *. rewrite Vc in Ey. apply Rabs_le_inv in Ey.
  assert (Em : IZR m = 2 * IZR q + IZR (Z.sgn q)) by (unfold m; rewrite plus_IZR, mult_IZR; reflexivity).
  destruct (Z.lt_total q 0) as [Hn|[->|Hp]]; [|lia|].
  - rewrite Z.sgn_neg in Em by lia. assert (IZR q <= -1) by (apply IZR_le; lia).
    rewrite Ztrunc_ceil by lra. apply Zceil_imp. rewrite minus_IZR. lra.
  - rewrite Z.sgn_pos in Em by lia. assert (1 <= IZR q) by (apply IZR_le; lia).
    rewrite Ztrunc_floor by lra. apply Zfloor_imp. rewrite plus_IZR. lra.
Qed.
End Sample.

(** ** A recording for each list of quantised calls *)
Definition pcm_of (ch n : Z) (call : list (list Z)) : list f32 :=
  map (fun i => sample_of (nth (Z.to_nat (i / ch)) (nth (Z.to_nat (i mod ch)) call []) 0)) (range (ch * n)).
Definition shaped (ch n : Z) (call : list (list Z)) : Prop :=
  zlen call = ch /\ Forall (fun qs => zlen qs = n /\ Forall (fun q => -32767 <= q <= 32767) qs) call.
Lemma zlen_pcm_of ch n call : 0 < ch -> 0 <= n -> zlen (pcm_of ch n call) = ch * n.
Proof. intros. unfold pcm_of. rewrite zlen_map, zlen_range. nia. Qed.
Lemma quant_pcm_of ch n call base : 0 < ch -> 0 <= n -> shaped ch n call -> quant_call (inv_gain 0) base ch (pcm_of ch n call) = call.
Proof.
  intros Hch Hn [HL HS]. unfold quant_call. apply (nth_ext _ _ [] []).
  { rewrite map_length, length_range. unfold zlen in HL. lia. }
  rewrite map_length, length_range. intros j Hj.
  rewrite (nth_indep _ [] (quant_channel (inv_gain 0) base ch (pcm_of ch n call) 0)) by (rewrite map_length, length_range; lia).
  rewrite (map_nth (quant_channel (inv_gain 0) base ch (pcm_of ch n call))), <- (Nat2Z.id j), nth_range by lia. rewrite Nat2Z.id.
  assert (Hq : zlen (nth j call []) = n /\ Forall (fun q => -32767 <= q <= 32767) (nth j call [])).
  { rewrite Forall_forall in HS. apply HS. apply nth_In. unfold zlen in HL. lia. }
  destruct Hq as [Hq1 Hq2]. unfold quant_channel. rewrite zlen_pcm_of by auto. rewrite (Z.mul_comm ch n), Z.div_mul by lia.
  apply (nth_ext _ _ 0 0).
  { rewrite map_length, length_range. unfold zlen in Hq1. lia. }
  rewrite map_length, length_range. intros k Hk.
  set (F := fun k => quantise (preprocessed (inv_gain 0) base ch n (pcm_of ch n call) (Z.of_nat j) k)).
  rewrite (nth_indep _ 0 (F 0)) by (rewrite map_length, length_range; lia). rewrite (map_nth F).
  rewrite <- (Nat2Z.id k) at 1. rewrite nth_range by lia. unfold F, preprocessed.
  destruct (noise_small (base + Z.to_nat (Z.of_nat j * n + Z.of_nat k))). rewrite quantise_level0 by auto.
  set (i := Z.of_nat k * ch + Z.of_nat j). assert (Hi : 0 <= i < ch * n) by (subst i; nia).
  unfold pcm_of. set (G := fun i => sample_of (nth (Z.to_nat (i / ch)) (nth (Z.to_nat (i mod ch)) call []) 0)).
  rewrite (nth_indep _ (f32_of_Z 0) (G 0)) by (rewrite map_length, length_range; lia). rewrite (map_nth G), nth_range by lia.
  unfold G. assert (E1 : i / ch = Z.of_nat k) by (symmetry; apply (Z.div_unique i ch _ (Z.of_nat j)); lia).
  assert (E2 : i mod ch = Z.of_nat j) by (symmetry; apply (Z.mod_unique i ch (Z.of_nat k)); lia).
  rewrite E1, E2, !Nat2Z.id. apply quantise_sample. rewrite Forall_forall in Hq2. apply Hq2. apply nth_In. unfold zlen in Hq1. lia.
Qed.
Definition copy_of (ch : Z) (pcm pcm' : list f32) : Prop := zlen pcm' = ch * (zlen pcm / ch).
Lemma quantised_recording ch pcms calls : 0 < ch -> Forall2 (fun pcm call => shaped ch (zlen pcm / ch) call) pcms calls ->
  exists pcms', Forall2 (copy_of ch) pcms pcms' /\ forall base, quant_calls (inv_gain 0) base ch pcms' = calls.
Proof.
  intros Hch H. induction H as [|pcm call pcms calls HS H (pcms' & HC & HQ)].
  { exists []. split; [constructor|reflexivity]. }
  assert (Hn : 0 <= zlen pcm / ch) by (apply Z.div_pos; [apply zlen_nonneg|lia]).
  exists (pcm_of ch (zlen pcm / ch) call :: pcms'). split.
  - constructor; auto. now apply zlen_pcm_of.
  - intros base. cbn [quant_calls]. rewrite HQ, quant_pcm_of; auto.
Qed.
Lemma copy_blocks ch pcm pcm' : 0 < ch -> copy_of ch pcm pcm' -> zlen pcm' / ch = zlen pcm / ch.
Proof. intros H ->. rewrite Z.mul_comm. apply Z.div_mul. lia. Qed.
Lemma copy_short ch pcm pcm' : 0 < ch -> copy_of ch pcm pcm' -> (zlen pcm' < ch <-> zlen pcm < ch).
Proof.
  intros H ->. pose proof (zlen_nonneg pcm). split; intros L.
  - destruct (Z.le_gt_cases ch (zlen pcm)); [|lia]. assert (1 <= zlen pcm / ch) by (apply Z.div_le_lower_bound; lia). nia.
  - rewrite Z.div_small by lia. lia.
Qed.
Lemma copy_total ch pcms pcms' : 0 < ch -> Forall2 (copy_of ch) pcms pcms' -> total_blocks ch pcms' = total_blocks ch pcms.
Proof.
  intros Hch H. unfold total_blocks. induction H as [|pcm pcm' pcms pcms' HC H IH]; [reflexivity|]. cbn [map fold_right].
  now rewrite IH, (copy_blocks ch pcm).
Qed.
Lemma copy_ok ch pcms pcms' : recording_ok ch pcms -> Forall2 (copy_of ch) pcms pcms' -> recording_ok ch pcms'.
Proof.
  intros (Hch & H3 & Hn & Hf & Hs) H. split; [exact Hch|]. split.
  { destruct H as [|pcm pcm' pcms pcms' HC H]; [exact I|]. rewrite HC.
    assert (3 <= zlen pcm / ch) by (apply Z.div_le_lower_bound; lia). nia. }
  assert (L : zlen pcms' = zlen pcms) by (clear - H; induction H; rewrite ?zlen_cons; [reflexivity|lia]).
  split.
  { clear - H Hn Hch. induction H as [|pcm pcm' pcms pcms' HC H IH]; constructor; inversion Hn; subst; auto.
    rewrite HC. pose proof (Z.mul_div_le (zlen pcm) ch Hch). lia. }
  split; [rewrite L; exact Hf|].
  assert (zlen (concat pcms') <= zlen (concat pcms)); [|lia].
  clear - H Hch. induction H as [|pcm pcm' pcms pcms' HC H IH]; [reflexivity|]. cbn [concat]. rewrite !zlen_app, HC.
  pose proof (Z.mul_div_le (zlen pcm) ch Hch). lia.
Qed.
Lemma copy_audible ch pcms pcms' : 0 < ch -> Forall2 (copy_of ch) pcms pcms' -> forall run, audible ch run pcms' = audible ch run pcms.
Proof.
  intros Hch H. induction H as [|pcm pcm' pcms pcms' HC H IH]; intros run; [reflexivity|]. cbn [audible].
  pose proof (copy_short _ _ _ Hch HC) as S. rewrite (copy_blocks _ _ _ Hch HC), !IH.
  destruct (Z.ltb_spec (zlen pcm') ch), (Z.ltb_spec (zlen pcm) ch); try reflexivity; lia.
Qed.

(** ** Encoding stretches *)
Lemma make_rows_app sts a b : make_rows sts (a ++ b) = make_rows sts a ++ make_rows (final_sts sts a) b.
Proof. revert sts; induction a as [|x a IH]; intros sts; cbn [app make_rows final_sts]; [reflexivity|]. now rewrite IH. Qed.
Lemma final_sts_app sts a b : final_sts sts (a ++ b) = final_sts (final_sts sts a) b.
Proof. revert sts; induction a as [|x a IH]; intros sts; cbn [app final_sts]; auto. Qed.
Lemma final_sts_some sts calls : calls <> [] -> ~ In None (final_sts sts calls).
Proof.
  intros H. destruct calls as [|x calls]; [congruence|]. clear H. cbn [final_sts]. revert x sts.
  induction calls as [|y calls IH]; intros x sts; cbn [final_sts]; [apply next_sts_some|apply IH].
Qed.
Lemma total_draws_blocks ch pcms : 0 < ch -> total_draws ch pcms = Z.to_nat (ch * total_blocks ch pcms).
Proof.
  intros Hch. induction pcms as [|pcm pcms IH]; [unfold total_blocks; cbn; now rewrite Z.mul_0_r|]. cbn [total_draws]. rewrite IH.
  assert (0 <= zlen pcm / ch) by (apply Z.div_pos; [apply zlen_nonneg|lia]). pose proof (total_blocks_nonneg ch pcms Hch).
  unfold total_blocks in *. cbn [map fold_right]. nia.
Qed.
Lemma with_level_rel c info inv fs sts base level : 0 <= level -> enc_rel c info inv fs sts base ->
  enc_rel (ad_with_level c level) info (inv_gain level) fs sts base.
Proof.
  intros Hl [H1 H2 H3 H4 H5 H6 H7]. constructor; auto. rewrite <- (new_codec_inv info level Hl). reflexivity.
Qed.
Lemma with_level_scale c level : 0 <= level -> ad_scale (ad_with_level c level) = gain level.
Proof. intros Hl. rewrite <- (new_codec_scale (mkInfo 0 0) level Hl). reflexivity. Qed.
Lemma quant_calls_nil inv base ch pcms : quant_calls inv base ch pcms = [] -> pcms = [].
Proof. destruct pcms; cbn [quant_calls]; [reflexivity|discriminate]. Qed.

Lemma encode_stretches_spec p ss c info inv fs sts base :
  let ch := si_channels info in
  let rows := make_rows sts (quant_stretches base ch ss) in
  enc_rel c info inv fs sts base -> 0 < ch -> first_ok sts ch (slices ss) -> Forall (fun s => 0 <= fst s) ss ->
  Forall (fun pcm => zlen pcm / ch <= 131007) (slices ss) ->
  Forall (frame_exp_ok p) (concat rows) ->
  zlen fs + ch * zlen (slices ss) + 1 < 2 ^ 32 ->
  zlen (flat_map fr_bits (fs ++ concat rows)) < 2 ^ 64 ->
  exists c' inv' sts' base', encode_stretches p c ss = Ok c' /\ enc_rel c' info inv' (fs ++ concat rows) sts' base' /\
    (ss <> [] -> ad_scale c' = gain (last_level ss)).
Proof.
  cbv zeta. revert c inv fs sts base; induction ss as [|[level pcms] ss IH]; intros c inv fs sts base HR Hch H3 HL Hn He Hf Hb.
  - exists c, inv, sts, base. cbn [quant_stretches make_rows concat encode_stretches foldM]. rewrite app_nil_r.
    repeat split; auto; try apply HR. congruence.
  - set (ch := si_channels info) in *. cbn [quant_stretches slices flat_map fst snd] in *. fold (slices ss) in *.
    inversion HL as [|? ? HL1 HL2]; subst. cbn [fst] in HL1. apply Forall_app in Hn. destruct Hn as [Hn1 Hn2].
    rewrite make_rows_app, concat_app in He, Hb. apply Forall_app in He. destruct He as [He1 He2]. rewrite zlen_app in Hf.
    pose proof (zlen_nonneg (slices ss)) as N. pose proof (zlen_nonneg pcms) as N'.
    destruct (encode_all_spec p pcms (ad_with_level c level) info (inv_gain level) fs sts base) as (c1 & E1 & R1 & S1); auto.
    { eapply with_level_rel; eauto. }
    { destruct pcms; [exact I|exact H3]. }
    { fold ch. nia. }
    { fold ch. rewrite app_assoc, flat_map_app, zlen_app in Hb. match type of Hb with _ + zlen ?x < _ => pose proof (zlen_nonneg x) end. lia. }
    fold ch in R1. set (calls := quant_calls (inv_gain level) base ch pcms) in *. rewrite total_draws_blocks in R1 by auto.
    destruct (IH c1 _ _ _ _ R1) as (c2 & inv' & sts' & base' & E2 & R2 & S2); auto.
    { destruct pcms as [|pcm pcms]; [exact H3|]. destruct ss as [|s ss]; [exact I|]. destruct (slices (s :: ss)); [exact I|].
      intros X. exfalso. revert X. apply final_sts_some. unfold calls. cbn [quant_calls]. discriminate. }
    { fold ch. rewrite zlen_app. assert (zlen (concat (make_rows sts calls)) = ch * zlen pcms); [|lia].
      assert (L : length sts = Z.to_nat ch) by (pose proof (er_num _ _ _ _ _ _ HR) as E0; unfold zlen in E0; fold ch in E0; lia).
      pose proof (length_rows sts calls) as LR. rewrite L in LR. specialize (LR (length_quant_calls _ _ _ _)).
      assert (LM : length (make_rows sts calls) = length pcms).
      { unfold calls. clear. revert sts base. induction pcms; intros; cbn [quant_calls make_rows length]; auto. }
      unfold zlen. rewrite <- LM. clear - LR Hch. induction LR as [|r rows H HF IH2]; cbn [concat length]; [lia|]. rewrite app_length. lia. }
    { fold ch. rewrite <- app_assoc. exact Hb. }
    exists c2, inv', sts', base'. split; [|split].
    + cbn [encode_stretches foldM fst snd]. rewrite E1. exact E2.
    + fold ch in R2. rewrite make_rows_app, concat_app. rewrite <- app_assoc in R2. exact R2.
    + intros _. destruct ss as [|s ss].
      * cbn in E2. injection E2 as <-. destruct S1 as (_ & -> & _). unfold last_level. cbn [map fst last]. now apply with_level_scale.
      * rewrite S2 by discriminate. reflexivity.
Qed.
Lemma call_shaped inv base ch pcm : 0 < ch -> shaped ch (zlen pcm / ch) (quant_call inv base ch pcm).
Proof.
  intros Hch. split; [unfold zlen; rewrite length_quant_call; lia|]. apply Forall_forall. intros qs Hq. apply in_map_iff in Hq.
  destruct Hq as (c & <- & _). split; [now apply zlen_quant_channel|]. unfold quant_channel. apply Forall_forall. intros q Hq.
  apply in_map_iff in Hq. destruct Hq as (k & <- & _). apply truncate_range.
Qed.
Lemma calls_shaped inv base ch pcms : 0 < ch -> Forall2 (fun pcm call => shaped ch (zlen pcm / ch) call) pcms (quant_calls inv base ch pcms).
Proof.
  intros Hch. revert base. induction pcms as [|pcm pcms IH]; intros base; cbn [quant_calls]; constructor; auto. now apply call_shaped.
Qed.
Lemma stretches_shaped ch ss base : 0 < ch ->
  Forall2 (fun pcm call => shaped ch (zlen pcm / ch) call) (slices ss) (quant_stretches base ch ss).
Proof.
  intros Hch. revert base. induction ss as [|[level pcms] ss IH]; intros base; [constructor|].
  cbn [slices flat_map snd quant_stretches]. apply Forall2_app; [now apply calls_shaped|apply IH].
Qed.

(** What comes back. *)
Definition stretch_output (ch : Z) (ss : list stretch) : list f32 :=
  interleave f0 (Z.to_nat (total_blocks ch (slices ss)))
    (map (fun c => map (fun q => fmul (restore q) (gain (last_level ss))) (stretch_signal ch ss c)) (range ch)).
Lemma stretches_play p info ss :
  let ch := si_channels info in
  ss <> [] -> Forall (fun s => 0 <= fst s) ss -> recording_ok ch (slices ss) -> no_long_gap ch (slices ss) ->
  (forall c, 0 <= c < ch -> tame (stretch_signal ch ss c)) ->
  exists c1, encode_stretches p (ad_set_info ad_new info) ss = Ok c1 /\
    forall bufs, exists c2 rs, decode_all p (ad_init c1) bufs = Ok (c2, rs) /\
      concat (map reported rs) = firstn (Z.to_nat (room ch bufs)) (stretch_output ch ss).
Proof.
  intros ch Hne HL HR HG HT. assert (Hch : 0 < ch) by apply HR.
  destruct (quantised_recording ch _ _ Hch (stretches_shaped ch ss 0 Hch)) as (pcms & HC & HQ).
  specialize (HQ 0%nat). pose proof (copy_ok ch _ _ HR HC) as HR'.
  assert (ES : forall c, quant_signal (inv_gain 0) ch pcms c = stretch_signal ch ss c).
  { intros c. unfold quant_signal, stretch_signal. now rewrite HQ. }
  assert (EF : frames_of (inv_gain 0) ch pcms = make_rows (repeat None (Z.to_nat ch)) (quant_stretches 0 ch ss)).
  { unfold frames_of. now rewrite HQ. }
  assert (HS : safe_build p (inv_gain 0) ch pcms).
  { apply safe_fifteen; auto. intros c Hc. rewrite ES. apply tame_fifteen. now apply HT. }
  pose proof (recording_bits (inv_gain 0) ch pcms HR') as Hbits. pose proof (recording_chunks ch _ HR) as Hn.
  set (sts := repeat (@None hist) (Z.to_nat ch)) in *.
  destruct (encode_stretches_spec p ss (ad_set_info ad_new info) info (ad_inv_scale ad_new) [] sts 0) as (c1 & inv' & sts' & base' & E & R & S); auto.
  { pose proof (new_codec_rel info 0 ltac:(fold ch; lia)) as [H1 H2 H3 H4 H5 H6 H7]. constructor; auto. }
  { apply first_ok_rec; [exact Hch|]. apply HR. }
  { eapply Forall_impl; [|exact Hn]. cbv beta. fold ch. intros; lia. }
  { fold ch. rewrite <- EF. exact HS. }
  { fold ch. change (zlen (@nil frame)) with 0. destruct HR as (_ & _ & _ & Hf & _). lia. }
  { fold ch. cbn [app]. rewrite <- EF. lia. }
  exists c1. split; [exact E|]. intros bufs. cbn [app] in R. fold ch in R. rewrite <- EF in R.
  assert (HM : mem_ok (bs_binary (as_stream (ad_stream c1))) (concat (frames_of (inv_gain 0) ch pcms))).
  { destruct R as [_ _ _ _ HB _ _]. split; [|split; [|split]].
    + apply HB.
    + unfold bits_of. eapply holds_len; eauto.
    + exact Hbits.
    + rewrite recording_frames by auto. apply HR'. }
  assert (HO : rows_ok p sts (frames_of (inv_gain 0) ch pcms)).
  { unfold frames_of. fold sts. apply make_rows_ok; auto.
    - unfold sts. rewrite zlen_repeat. lia.
    - apply first_ok_rec; [exact Hch|]. apply HR'.
    - apply recording_chunks; auto.
    - unfold same_shape. clear. induction sts; constructor; tauto. }
  assert (HRec : recorded p info (bs_binary (as_stream (ad_stream c1))) (frames_of (inv_gain 0) ch pcms)).
  { split; [exact HM|]. split; [exact HO|exact Hch]. }
  pose proof (encoded_decoding p c1 info _ _ _ _ R HRec) as HD. fold ch in HD.
  rewrite (frames_reach (inv_gain 0) ch pcms 0 HR'), (copy_audible ch _ _ Hch HC), audible_all in HD by auto.
  pose proof (output_lossy p (inv_gain 0) ch pcms Hch (proj1 (proj2 HR')) HO) as HF.
  destruct (output_len p (inv_gain 0) ch pcms Hch (proj1 (proj2 HR')) HO) as [L1 L2]. rewrite (copy_total ch _ _ Hch HC) in L2.
  set (T := Z.to_nat (total_blocks ch (slices ss))) in *. pose proof (total_blocks_nonneg ch (slices ss) Hch) as HT0.
  destruct (decode_all_spec p bufs (ad_init c1) info _ _ _ T T HD) as (c2 & rs & E2 & R2 & _); auto.
  { eapply Forall_impl; [|exact L2]. cbv beta. intros l Hl. subst T. lia. }
  exists c2, rs. split; [exact E2|]. rewrite R2. fold ch.
  assert (EG : full_output ch (frames_of (inv_gain 0) ch pcms) = map (fun c => map restore (stretch_signal ch ss c)) (range ch)).
  { rewrite HF. apply map_ext_in. intros c Hc. apply in_range in Hc. rewrite ES. apply restored_tame; auto.
    rewrite <- ES. apply quant_signal_range. }
  cbn [ad_init ad_scale]. rewrite (S Hne).
  assert (EO : stretch_output ch ss = map (fun x => fmul x (gain (last_level ss))) (interleave f0 T (full_output ch (frames_of (inv_gain 0) ch pcms)))).
  { rewrite (map_interleave _ f0 f0).
    - unfold stretch_output. fold T. rewrite EG, map_map. f_equal. apply map_ext. intros c. now rewrite map_map.
    - eapply Forall_impl; [|exact L2]. cbv beta. intros l Hl. subst T. unfold zlen in Hl. lia. }
  rewrite EO, firstn_map. f_equal. rewrite room_blocks by auto.
  replace (Z.to_nat (ch * Z.of_nat (blocks_of (Z.to_nat ch) bufs)))
    with (blocks_of (Z.to_nat ch) bufs * length (full_output ch (frames_of (inv_gain 0) ch pcms)))%nat by (rewrite L1; lia).
  rewrite interleave_min; [reflexivity|].
  eapply Forall_impl; [|exact L2]. cbv beta. intros l Hl. subst T. unfold zlen in Hl. lia.
Qed.

(** ** Parts of an interleaved signal *)
Lemma interleave_ext {A} (d : A) k a b : Forall2 (fun x y => firstn k x = firstn k y) a b -> interleave d k a = interleave d k b.
Proof.
  revert a b. induction k as [|k IH]; intros a b H; [reflexivity|]. cbn [interleave]. f_equal.
  - induction H as [|x y a b E H IH2]; [reflexivity|]. cbn [map]. f_equal; auto. destruct x, y; try discriminate E; auto. now injection E.
  - apply IH. clear IH. induction H as [|x y a b E H IH2]; cbn [map]; constructor; auto.
    destruct x, y; try discriminate E; auto. now injection E.
Qed.
Lemma interleave_part {A} (d : A) (f g h : Z -> list A) cs m k r :
  (forall c, In c cs -> length (f c) = m /\ length (g c) = k) ->
  firstn (length cs * k) (skipn (length cs * m) (interleave d (m + (k + r)) (map (fun c => f c ++ g c ++ h c) cs))) = interleave d k (map g cs).
Proof.
  intros H. rewrite interleave_add, skipn_app, skipn_all2 by (rewrite interleave_len, map_length; lia).
  rewrite interleave_len, map_length. replace (length cs * m - m * length cs)%nat with 0%nat by lia. cbn [app skipn].
  rewrite interleave_add, firstn_app, firstn_all2 by (rewrite interleave_len, !map_length; lia).
  rewrite interleave_len, !map_length. replace (length cs * k - k * length cs)%nat with 0%nat by lia. cbn [firstn]. rewrite app_nil_r.
  apply interleave_ext. rewrite map_map.
  assert (G : forall c, In c cs -> firstn k (skipn m (f c ++ g c ++ h c)) = firstn k (g c)).
  { intros c Hc. destruct (H c Hc) as [H1 H2]. rewrite skipn_app, skipn_all2, H1, Nat.sub_diag by lia. cbn [app skipn].
    rewrite firstn_app, H2, Nat.sub_diag. cbn [firstn]. apply app_nil_r. }
  clear H. induction cs as [|c cs IH]; cbn [map]; constructor; [apply G; now left|]. apply IH. intros c' Hc'. apply G. now right.
Qed.
