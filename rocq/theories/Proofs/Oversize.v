(** * Encode calls with 65536 or more samples per channel *)
From Coq Require Import ZArith List Bool Lia.
From Verif Require Import Model.Base Model.F32 Model.Noise Model.Sample Model.BitStream
  Model.CircularStack Model.Frame Model.Adhoc Spec.Bits Spec.Codec Spec.Recording
  Proofs.BaseFacts Proofs.BitStreamFacts Proofs.BitLog Proofs.Rice Proofs.Headers
  Proofs.StreamOpsFacts Proofs.FrameFacts Proofs.EncodeFacts Proofs.DecodeFacts Proofs.FloatFacts Proofs.Predict
  Proofs.RoundTrip Proofs.SignalFacts Proofs.AnyState.
Import ListNotations.
Open Scope Z_scope.

(** ** Stored frame sizes, for calls of any length *)
Definition sized (c : adhoc) (info : stream_info) (szs : list Z) : Prop :=
  as_info (ad_stream c) = Some info /\
  exists l, fhs_rep (ad_headers c) l /\ fhs_cursor (ad_headers c) = zlen l /\ map fh_size l = szs.

Lemma first_min_in (l : list (Z * Z)) acc k b :
  fold_left (fun best '(k, b) =>
               match best with
               | None => Some (k, b)
               | Some (k0, b0) => if b <? b0 then Some (k, b) else Some (k0, b0)
               end) l acc = Some (k, b) -> acc = Some (k, b) \/ In (k, b) l.
Proof.
  revert acc; induction l as [|[k1 b1] l IH]; intros acc H; cbn [fold_left] in H; auto.
  apply IH in H. destruct H as [H|H]; [|right; right; exact H].
  destruct acc as [[k0 b0]|].
  - destruct (b1 <? b0); [right; left; congruence|left; exact H].
  - right; left; congruence.
Qed.
Lemma skipn_combine {A B} n (a : list A) (b : list B) : skipn n (combine a b) = combine (skipn n a) (skipn n b).
Proof.
  revert a b; induction n as [|n IH]; intros a b; [reflexivity|].
  destruct a, b; cbn [combine skipn]; auto. now destruct (skipn n a0).
Qed.
Lemma pick_range t : 0 <= pick_exponent t < 16.
Proof.
  unfold pick_exponent. destruct (first_min _) as [[k b]|] eqn:E; [|lia].
  unfold first_min in E. apply first_min_in in E. destruct E as [E|E]; [discriminate|].
  apply filter_In in E. destruct E as [E _]. rewrite skipn_combine in E. apply in_combine_l in E.
  change (range 16) with (map Z.of_nat (seq 0 16)) in E. cbn in E.
  repeat (destruct E as [<-|E]; [lia|]). destruct E.
Qed.
Lemma exponent_range p h l e : compute_optimal_divisor_exponent p h l = Ok e -> 0 <= e < 16.
Proof. unfold compute_optimal_divisor_exponent. intros H. inv_bind H. injection H as <-. apply pick_range. Qed.

Lemma push_sized p hs l e sz cur init h hs' :
  fhs_rep hs l -> fhs_cursor hs = zlen l -> 0 <= e < 16 -> zlen l + 1 < 2 ^ 32 ->
  fhs_push p hs (mkFH e sz cur init h) = Ok hs' ->
  exists l', fhs_rep hs' l' /\ fhs_cursor hs' = zlen l' /\ map fh_size l' = map fh_size l ++ [sz].
Proof.
  intros HR HC He Hn H.
  assert (E : fhs_push p hs (mkFH e sz cur init h) = fhs_push p hs (mkFH e sz (uwrap 64 cur) init h)).
  { unfold fhs_push. cbn [fh_bit_cursor fh_exponent fh_size fh_is_init fh_history].
    rewrite (uwrap_small 64 (uwrap 64 cur)) by (apply uwrap_range; lia). reflexivity. }
  rewrite E in H.
  destruct (fhs_push_rep p hs l (mkFH e sz (uwrap 64 cur) init h)) as (f' & E' & R' & C'); auto.
  - split; cbn [fh_exponent fh_bit_cursor]; auto. apply uwrap_range. lia.
  - rewrite HC. apply zlen_nonneg.
  - rewrite HC. exact Hn.
  - rewrite H in E'. injection E' as <-. eexists. split; [exact R'|].
    unfold push_at. rewrite HC. destruct (Z.ltb_spec (zlen l) (zlen l)); [lia|]. rewrite C', HC, zlen_app, map_app.
    split; reflexivity.
Qed.

Lemma encode_frame_sized p c s hs l pcm c' s' hs' :
  fhs_rep hs l -> fhs_cursor hs = zlen l -> zlen l + 1 < 2 ^ 32 ->
  encode_frame p c s hs pcm = Ok (c', s', hs') ->
  exists l', fhs_rep hs' l' /\ fhs_cursor hs' = zlen l' /\ map fh_size l' = map fh_size l ++ [uwrap 16 (zlen pcm)].
Proof.
  intros HR HC Hn H. unfold encode_frame in H. destruct (fc_state c); [| |discriminate].
  - inv_bind H. destruct a as [s1 h1]. inv_bind H. inv_bind H. inv_bind H. inv_bind H. destruct a2 as [s2 h2].
    injection H as _ _ <-. apply exponent_range in Ha1.
    eapply push_sized; [exact HR|exact HC| |exact Hn|exact Ha2].
    rewrite uwrap_small by (change (2 ^ 8) with 256; lia). lia.
  - inv_bind H. inv_bind H. inv_bind H. destruct a1 as [s2 h2].
    injection H as _ _ <-. apply exponent_range in Ha.
    eapply push_sized; [exact HR|exact HC| |exact Hn|exact Ha0].
    rewrite uwrap_small by (change (2 ^ 8) with 256; lia). lia.
Qed.

Lemma encode_channel_sized p pcm ch n c j c' info szs :
  sized c info szs -> 0 <= n -> zlen szs + 1 < 2 ^ 32 ->
  encode_channel p pcm ch n c j = Ok c' -> sized c' info (szs ++ [n mod 65536]).
Proof.
  intros (Hi & l & HR & HC & HM) Hn0 Hn H. unfold encode_channel in H. inv_bind H. inv_bind H. destruct a0 as [sq smp].
  inv_bind H. inv_bind H. destruct a1 as [[fc s] hs]. inv_bind H. injection H as <-.
  split; [exact Hi|]. cbn [ad_headers].
  rewrite <- HM in Hn. rewrite zlen_map in Hn.
  destruct (encode_frame_sized _ _ _ _ _ _ _ _ _ HR HC Hn Ha2) as (l' & R' & C' & M').
  exists l'. split; [exact R'|]. split; [exact C'|]. rewrite M', HM. do 2 f_equal.
  apply length_dither in Ha0. apply length_mapM in Ha. rewrite length_range in Ha.
  unfold zlen, uwrap. rewrite Ha0, Ha. change (2 ^ 16) with 65536. f_equal. lia.
Qed.

Lemma encode_channels_sized p pcm ch n js c c' info szs :
  sized c info szs -> 0 <= n -> zlen szs + zlen js < 2 ^ 32 ->
  foldM (encode_channel p pcm ch n) js c = Ok c' -> sized c' info (szs ++ repeat (n mod 65536) (length js)).
Proof.
  revert c szs; induction js as [|j js IH]; intros c szs HS Hn0 Hn H; cbn [foldM] in H.
  - injection H as <-. cbn [length repeat]. now rewrite app_nil_r.
  - inv_bind H. rewrite zlen_cons in Hn. pose proof (zlen_nonneg js).
    eapply encode_channel_sized in Ha; eauto; [|lia].
    eapply IH in H; [|exact Ha|exact Hn0|].
    + cbn [length repeat]. rewrite <- app_assoc in H. exact H.
    + rewrite zlen_app. change (zlen [n mod 65536]) with 1. lia.
Qed.

Definition stored_sizes (ch : Z) (pcms : list (list f32)) : list Z :=
  flat_map (fun pcm => repeat ((zlen pcm / ch) mod 65536) (Z.to_nat ch)) pcms.
Lemma encode_all_sized p pcms c c' info szs :
  let ch := si_channels info in
  0 < ch -> sized c info szs -> zlen szs + ch * zlen pcms < 2 ^ 32 ->
  encode_all p c pcms = Ok c' -> sized c' info (szs ++ stored_sizes ch pcms).
Proof.
  cbv zeta. intros Hch. revert c szs; induction pcms as [|pcm pcms IH]; intros c szs HS Hn H; cbn [encode_all foldM] in H.
  - injection H as <-. cbn [stored_sizes flat_map]. now rewrite app_nil_r.
  - unfold encode_all in H. cbn [foldM] in H. inv_bind H. inv_bind Ha. destruct a0 as [c1 r]. injection Ha as <-.
    fold (encode_all p c1 pcms) in H.
    unfold ad_encode, ad_info in Ha0. rewrite (proj1 HS) in Ha0. cbn [expect bind] in Ha0.
    rewrite udiv_ok in Ha0 by lia. cbn [bind] in Ha0. inv_bind Ha0. injection Ha0 as -> _.
    rewrite zlen_cons in Hn. pose proof (zlen_nonneg pcms).
    assert (Lr : zlen (range (si_channels info)) = si_channels info) by (rewrite zlen_range; lia).
    eapply encode_channels_sized in Ha; [|exact HS| |].
    2: { apply Z.div_pos; [apply zlen_nonneg|lia]. }
    2: { rewrite Lr. nia. }
    rewrite length_range in Ha.
    eapply IH in H; [|exact Ha|].
    + cbn [stored_sizes flat_map]. rewrite <- app_assoc in H. exact H.
    + rewrite zlen_app, zlen_repeat. nia.
Qed.

Lemma count_table p c info szs :
  as_info (ad_stream c) = Some info -> (exists l, fhs_rep (ad_headers c) l /\ map fh_size l = szs) -> 0 < si_channels info -> zlen szs < 2 ^ 32 -> Forall (fun x => 0 <= x < 65536) szs ->
  ad_sample_count p c = Ok (fold_right Z.add 0 szs / si_channels info).
Proof.
  intros Hi (l & HR & <-) Hch Hn HF. rewrite zlen_map in Hn. unfold ad_sample_count, ad_info.
  rewrite Hi. cbn [expect bind]. rewrite (fhs_rep_len _ _ HR).
  set (step := fun acc i => _). set (total := fun a => fold_right Z.add 0 (map fh_size a)).
  assert (T0 : forall a, Forall (fun x => 0 <= x < 65536) (map fh_size a) -> 0 <= total a <= 65535 * zlen a).
  { intros a. unfold total. induction a as [|h a IH]; intros H; [cbn; lia|]. cbn [map fold_right]. inversion H; subst.
    apply IH in H3. rewrite zlen_cons. lia. }
  assert (TA : forall a b, total (a ++ b) = total a + total b).
  { intros a b. unfold total. induction a as [|h a IH]; [reflexivity|]. cbn [app map fold_right]. rewrite IH. lia. }
  assert (K : forall a b, l = a ++ b -> foldM step (map Z.of_nat (seq (length a) (length b))) (total a) = Ok (total l)).
  { intros a b. revert a. induction b as [|h b IH]; intros a ->; cbn [length seq map foldM].
    - now rewrite app_nil_r.
    - unfold step at 1. rewrite (fhs_get_rep _ _ _ HR) by lia.
      rewrite Nat2Z.id, nth_error_app2, Nat.sub_diag by lia. cbn [nth_error bind].
      pose proof HF as HF'. rewrite map_app in HF'. apply Forall_app in HF'. destruct HF' as [H1 H2].
      cbn [map] in H2. inversion H2; subst. apply T0 in H1. rewrite zlen_app in Hn.
      pose proof (zlen_nonneg (h :: b)). change (2 ^ 32) with 4294967296 in Hn.
      rewrite uchk_ok by (change (2 ^ 64) with 18446744073709551616; lia). cbn [bind].
      specialize (IH (a ++ [h])). rewrite <- app_assoc in IH. specialize (IH eq_refl).
      rewrite app_length in IH. cbn [length] in IH. replace (length a + 1)%nat with (S (length a)) in IH by lia.
      rewrite TA in IH. replace (total [h]) with (fh_size h) in IH by (unfold total; cbn; lia). exact IH. }
  specialize (K [] l eq_refl). cbn [length] in K. unfold range. rewrite to_nat_zlen.
  change (total []) with 0 in K. rewrite K. cbn [bind]. apply udiv_ok. lia.
Qed.

Lemma count_sized p c info szs :
  sized c info szs -> 0 < si_channels info -> zlen szs < 2 ^ 32 -> Forall (fun x => 0 <= x < 65536) szs ->
  ad_sample_count p c = Ok (fold_right Z.add 0 szs / si_channels info).
Proof. intros (Hi & l & HR & _ & HM). apply count_table; eauto. Qed.

Lemma sum_stored ch pcms : 0 < ch ->
  fold_right Z.add 0 (stored_sizes ch pcms) =
    ch * fold_right Z.add 0 (map (fun pcm => (zlen pcm / ch) mod 65536) pcms).
Proof.
  intros Hch. induction pcms as [|pcm pcms IH]; [cbn; lia|]. cbn [stored_sizes flat_map map fold_right].
  rewrite fold_right_app. fold (stored_sizes ch pcms). rewrite IH.
  set (x := _ mod 65536). clearbody x.
  assert (G : forall n z, fold_right Z.add z (repeat x n) = Z.of_nat n * x + z).
  { induction n as [|n IHn]; intros z; [cbn; lia|]. cbn [repeat fold_right]. rewrite IHn. lia. }
  rewrite G. lia.
Qed.
Lemma stored_range ch pcms : Forall (fun x => 0 <= x < 65536) (stored_sizes ch pcms).
Proof.
  apply Forall_forall. intros x Hx. unfold stored_sizes in Hx. apply in_flat_map in Hx.
  destruct Hx as (pcm & _ & Hx). apply repeat_spec in Hx. subst x. apply Z.mod_pos_bound. lia.
Qed.
Lemma zlen_stored ch pcms : 0 < ch -> zlen (stored_sizes ch pcms) = ch * zlen pcms.
Proof.
  intros Hch. induction pcms as [|pcm pcms IH]; [change (zlen (@nil (list f32))) with 0; cbn; lia|].
  cbn [stored_sizes flat_map]. rewrite zlen_app, zlen_repeat, zlen_cons. fold (stored_sizes ch pcms). lia.
Qed.
Lemma new_sized info level : sized (new_codec info level) info [].
Proof. split; [reflexivity|]. exists []. split; [apply fhs_rep_new|]. split; reflexivity. Qed.

(** ** One oversized call of a mono recording *)
Lemma diffs_firstn t qs n : diffs t (firstn n qs) = firstn n (diffs t qs).
Proof. revert t qs; induction n as [|n IH]; intros t qs; [reflexivity|]. destruct qs; cbn [firstn diffs]; auto. now rewrite IH. Qed.
Lemma residuals_firstn t qs n : residuals t (firstn n qs) = firstn n (residuals t qs).
Proof. unfold residuals. now rewrite diffs_firstn, firstn_map. Qed.

Lemma Forall_firstn' {A} (P : A -> Prop) n l : Forall P l -> Forall P (firstn n l).
Proof. intros H. rewrite <- (firstn_skipn n l) in H. apply Forall_app in H. apply H. Qed.
Definition short_frame (k : nat) (f : frame) : frame :=
  mkFrame (fr_init f) (fr_hist f) (fr_e f) (fr_raw f) (firstn k (fr_res f)).
Lemma short_bits k f : exists rest, fr_bits f = fr_bits (short_frame k f) ++ rest.
Proof.
  exists (flat_map (rice (fr_e f)) (skipn k (fr_res f))). unfold fr_bits, short_frame. cbn [fr_raw fr_res fr_e].
  rewrite <- app_assoc, <- flat_map_app, firstn_skipn. reflexivity.
Qed.

Lemma mono_quant_firstn inv base pcm k : 0 <= k <= zlen pcm ->
  quant_channel inv base 1 (firstn (Z.to_nat k) pcm) 0 = firstn (Z.to_nat k) (quant_channel inv base 1 pcm 0).
Proof.
  intros Hk. unfold quant_channel. rewrite !Z.div_1_r. rewrite zlen_firstn. rewrite firstn_map.
  replace (Z.min (Z.of_nat (Z.to_nat k)) (zlen pcm)) with k by lia.
  assert (E : firstn (Z.to_nat k) (range (zlen pcm)) = range k).
  { unfold range. rewrite firstn_map. f_equal. rewrite to_nat_zlen.
    assert (length pcm = Z.to_nat k + (length pcm - Z.to_nat k))%nat as -> by (unfold zlen in Hk; lia).
    rewrite seq_app, firstn_app, seq_length, Nat.sub_diag, firstn_all2 by (rewrite seq_length; lia).
    cbn [firstn]. now rewrite app_nil_r. }
  rewrite E. apply map_ext_in. intros i Hi. unfold range in Hi. apply in_map_iff in Hi. destruct Hi as (m & <- & Hm).
  apply in_seq in Hm. f_equal. unfold preprocessed. f_equal.
  rewrite nth_firstn_lt by lia. reflexivity.
Qed.

(** The single frame of a mono recording of one call. *)
Definition mono_frame (inv : f32) (pcm : list f32) : frame := make_frame None (quant_channel inv 0 1 pcm 0).
Lemma mono_frames inv pcm : frames_of inv 1 [pcm] = [[mono_frame inv pcm]].
Proof. reflexivity. Qed.
Lemma mono_size inv pcm : 3 <= zlen pcm -> fr_size (mono_frame inv pcm) = zlen pcm.
Proof.
  intros H. pose proof (zlen_quant_channel inv 0 1 pcm 0 ltac:(lia)) as L. rewrite Z.div_1_r in L.
  unfold mono_frame, make_frame, fr_size. cbn [fr_raw fr_res]. unfold residuals. rewrite zlen_map, zlen_firstn.
  replace (zlen (diffs _ _)) with (zlen (skipn 3 (quant_channel inv 0 1 pcm 0))) by (unfold zlen; now rewrite length_diffs).
  rewrite zlen_skipn, L. lia.
Qed.
Lemma mono_range inv pcm : 1 <= fr_e (mono_frame inv pcm) <= 15.
Proof. cbn [mono_frame make_frame fr_e]. apply best_range. Qed.
Lemma mono_bits inv pcm : 3 <= zlen pcm <= 131007 -> zlen (fr_bits (mono_frame inv pcm)) + 512 < 2 ^ 64.
Proof.
  intros H. pose proof (mono_range inv pcm). rewrite zlen_fr_bits by lia.
  pose proof (zlen_quant_channel inv 0 1 pcm 0 ltac:(lia)) as L. rewrite Z.div_1_r in L.
  cbn [mono_frame make_frame fr_raw fr_e fr_res]. 
  pose proof (quant_channel_i16 inv 0 1 pcm 0) as Q. rewrite <- (firstn_skipn 3 (quant_channel inv 0 1 pcm 0)) in Q.
  apply Forall_app in Q. destruct Q as [_ Q].
  pose proof (best_cost_18 (nth 0 (quant_channel inv 0 1 pcm 0) 0, nth 1 (quant_channel inv 0 1 pcm 0) 0, nth 2 (quant_channel inv 0 1 pcm 0) 0) _ Q) as B.
  rewrite zlen_skipn, L in B. rewrite zlen_firstn, L. rewrite pow2_64. lia.
Qed.

Lemma mono_encoded p info level pcm :
  si_channels info = 1 -> 3 <= zlen pcm <= 131007 ->
  frame_exp_ok p (mono_frame (ad_inv_scale (new_codec info level)) pcm) ->
  exists c1 sts base, encode_all p (new_codec info level) [pcm] = Ok c1 /\
    enc_rel c1 info (ad_inv_scale (new_codec info level)) [mono_frame (ad_inv_scale (new_codec info level)) pcm] sts base /\
    same_setup (new_codec info level) c1.
Proof.
  intros H1 Hn He. set (inv := ad_inv_scale _) in *.
  pose proof (new_codec_rel info level ltac:(lia)) as R. fold inv in R. rewrite H1 in R.
  destruct (encode_all_spec p [pcm] _ _ _ _ _ _ R) as (c1 & E & R1 & S); rewrite ?H1 in *; auto; try lia.
  - cbn. intros _. rewrite Z.div_1_r. lia.
  - constructor; auto. rewrite Z.div_1_r. lia.
  - change (concat _) with [mono_frame inv pcm]. constructor; auto.
  - change (zlen (@nil frame)) with 0. change (zlen [pcm]) with 1. rewrite pow2_32. lia.
  - change ([] ++ concat _) with [mono_frame inv pcm]. cbn [flat_map]. rewrite app_nil_r.
    pose proof (mono_bits inv pcm Hn). lia.
  - eauto 6.
Qed.
Lemma mono_exp p info level pcm c1 :
  si_channels info = 1 -> 3 <= zlen pcm <= 131007 -> encode_all p (new_codec info level) [pcm] = Ok c1 ->
  frame_exp_ok p (mono_frame (ad_inv_scale (new_codec info level)) pcm).
Proof.
  intros H1 Hn E. set (inv := ad_inv_scale _).
  pose proof (new_codec_rel info level ltac:(lia)) as R. fold inv in R. rewrite H1 in R.
  assert (F : Forall (frame_exp_ok p) [mono_frame inv pcm]).
  { assert (X := encode_all_exp p [pcm] _ _ _ _ _ _ c1 R). cbv zeta in X. rewrite H1 in X.
    change (concat _) with [mono_frame inv pcm] in X. apply X; auto; try lia.
    - cbn. intros _. rewrite Z.div_1_r. lia.
    - constructor; auto. rewrite Z.div_1_r. lia.
    - change (zlen (@nil frame)) with 0. change (zlen [pcm]) with 1. rewrite pow2_32. lia.
    - cbn [app flat_map]. rewrite app_nil_r. pose proof (mono_bits inv pcm Hn). lia. }
  now inversion F.
Qed.

Lemma oversize_playing p info level pcm c1 :
  si_channels info = 1 -> 0 <= level -> 65539 <= zlen pcm <= 131007 ->
  encode_all p (new_codec info level) [pcm] = Ok c1 ->
  playing p (ad_init c1) info level [firstn (Z.to_nat (zlen pcm - 65536)) pcm] 0 (Z.to_nat (zlen pcm - 65536)).
Proof.
  intros H1 Hlv Hn E. pose proof (mono_exp p info level pcm c1 H1 ltac:(lia) E) as HX.
  destruct (mono_encoded p info level pcm H1 ltac:(lia) HX) as (c1' & sts & base & E' & R & S).
  rewrite E in E'. injection E' as <-.
  rewrite (new_codec_inv info level Hlv) in *. set (inv := inv_gain level) in *.
  set (k := zlen pcm - 65536) in *. set (f := mono_frame inv pcm) in *.
  set (pcm' := firstn (Z.to_nat k) pcm).
  assert (L' : zlen pcm' = k) by (subst pcm'; rewrite zlen_firstn; lia).
  set (f' := short_frame (Z.to_nat (k - 3)) f).
  assert (Hsz : fr_size f = zlen pcm) by (apply mono_size; lia).
  assert (Lraw : length (fr_raw f) = 3%nat).
  { cbn [f mono_frame make_frame fr_raw]. rewrite firstn_length.
    pose proof (zlen_quant_channel inv 0 1 pcm 0 ltac:(lia)) as L. rewrite Z.div_1_r in L. clear -L Hn. unfold zlen in *. lia. }
  assert (Hsz' : fr_size f' = k).
  { unfold fr_size in *. cbn [f' short_frame fr_raw fr_res]. rewrite zlen_firstn.
    unfold zlen at 1 in Hsz. unfold zlen at 1. lia. }
  assert (HH : headers_of 0 [f'] = headers_of 0 [f]).
  { cbn [headers_of]. unfold header_of. rewrite Hsz, Hsz'. cbn [f' short_frame fr_e fr_init fr_hist].
    do 2 f_equal. unfold uwrap. change (2 ^ 16) with 65536. subst k. 
    replace (zlen pcm) with (zlen pcm - 65536 + 1 * 65536) at 2 by lia. now rewrite Z_mod_plus_full. }
  (* the values of the short frame *)
  assert (Ev : decode_floats None f' = decode_floats None (mono_frame inv pcm')).
  { cbn [f' f short_frame mono_frame make_frame decode_floats fr_raw fr_res].
    rewrite <- residuals_firstn. subst pcm'. rewrite mono_quant_firstn by lia.
    set (qs := quant_channel inv 0 1 pcm 0). clearbody qs.
    replace (firstn 3 (firstn (Z.to_nat k) qs)) with (firstn 3 qs) by (rewrite firstn_firstn; f_equal; lia).
    replace (firstn (Z.to_nat (k - 3)) (skipn 3 qs)) with (skipn 3 (firstn (Z.to_nat k) qs)).
    2: { rewrite skipn_firstn_comm. f_equal. lia. }
    rewrite !nth_firstn_lt by lia. reflexivity. }
  assert (HR' : recording_ok 1 [pcm']).
  { split; [lia|]. split; [lia|]. split; [constructor; auto; lia|]. change (zlen [pcm']) with 1.
    split; [rewrite pow2_32; lia|]. cbn [concat]. rewrite app_nil_r, L'. change (2 ^ 58) with 288230376151711744. lia. }
  assert (HO' : rows_ok Release (repeat None (Z.to_nat 1)) (frames_of inv 1 [pcm'])).
  { pose proof (encode_recording Release info level [pcm']) as X. cbv zeta in X. rewrite H1, (new_codec_inv info level Hlv) in X.
    destruct (X HR' (safe_release _ _ _)) as (? & _ & _ & _ & _ & X'). exact X'. }
  (* memory and rows *)
  assert (HM : mem_ok (bs_binary (as_stream (ad_stream c1))) [f']).
  { destruct (short_bits (Z.to_nat (k - 3)) f) as (rest & EB). fold f' in EB.
    pose proof (mono_bits inv pcm ltac:(lia)) as MB. fold f in MB.
    destruct R as [_ _ _ _ HB _ _]. pose proof (holds_len _ _ HB) as HL. destruct HB as (_ & _ & _ & HB & _).
    cbn [flat_map] in HB, HL. rewrite app_nil_r in HB, HL.
    rewrite EB in HB, HL, MB. apply bits_at_app in HB. destruct HB as [HB _]. rewrite zlen_app in *.
    pose proof (zlen_nonneg rest). unfold mem_ok, bits_of. cbn [flat_map]. rewrite app_nil_r.
    split; [exact HB|]. split; [lia|]. split; [lia|]. change (zlen [f']) with 1. rewrite pow2_32. lia. }
  assert (HO : rows_ok p (repeat None (Z.to_nat 1)) [[f']]).
  { pose proof (mono_range inv pcm) as HE. fold f in HE.
    split; [|split; [exists k; constructor; auto|exact I]]. constructor; [|constructor].
    split; [cbn [f' short_frame fr_e]; lia|]. split; [|split; [|split; [lia|]]].
    - intros Hne. apply HX. intros E0. apply Hne. cbn [f' short_frame fr_res]. rewrite E0. apply firstn_nil.
    - cbn [f' short_frame fr_res]. apply Forall_firstn'. cbn [f mono_frame make_frame fr_res]. apply residuals_range.
    - split; [exact Lraw|]. cbn [f' f short_frame mono_frame make_frame fr_raw]. apply Forall_firstn'. apply quant_channel_i16. }
  assert (HRec : recorded p info (bs_binary (as_stream (ad_stream c1))) [[f']]).
  { split; [exact HM|]. rewrite H1. split; [exact HO|lia]. }
  assert (EO : full_output 1 [[f']] = full_output 1 (frames_of inv 1 [pcm'])).
  { rewrite mono_frames. unfold full_output. change (Z.to_nat 1) with 1%nat. cbn [repeat remaining step_row zipw step_ch fst snd map].
    unfold step_ch. cbn [fst snd app]. now rewrite Ev. }
  assert (HRe : reach_run 0 [[f']] = k).
  { cbn [reach_run]. unfold row_n. rewrite Hsz'. destruct (Z.eqb_spec k 0); [lia|]. cbn. lia. }
  assert (HD : decoding p (ad_init c1) info (bs_binary (as_stream (ad_stream c1))) [[f']] (full_output (si_channels info) [[f']]) (Z.to_nat (reach_run 0 [[f']]))).
  { destruct R as [Hi _ HC Hnum HB [HHs _] _]. apply init_decoding; auto.
    - rewrite <- Hnum. unfold zlen. f_equal. eapply Forall2_len; eauto.
    - clear -HC. induction HC as [|fc d chs ds0 [_ H1]]; constructor; auto.
      destruct d; destruct H1; eauto using hist_is_any.
    - apply HB.
    - apply ext_refl.
    - cbn [concat app]. rewrite HH. exact HHs. }
  assert (H3 : 3 * 1 <= zlen pcm') by lia.
  destruct (output_len Release inv 1 [pcm'] ltac:(lia) H3 HO') as [_ HL].
  exists (bs_binary (as_stream (ad_stream c1))), [[f']]. rewrite map_skipn_0. rewrite HRe in HD.
  split; [exact HD|]. split; [exact HRec|]. rewrite H1, EO.
  split; [apply (output_lossy Release); auto; lia|]. split; [exact HL|]. split; [|split].
  - rewrite HRe. cbn [audible]. rewrite L'. destruct (Z.ltb_spec k 1); [lia|]. cbn. rewrite Z.div_1_r. lia.
  - apply total_blocks_nonneg. lia.
  - cbn [ad_init ad_scale]. destruct S as (_ & -> & _). now apply new_codec_scale.
Qed.

(** ** Encoding over an earlier recording *)
(** Like [sized], with the write position at frame [k] of the table. *)
Definition sized_at (c : adhoc) (info : stream_info) (k : Z) (szs : list Z) : Prop :=
  as_info (ad_stream c) = Some info /\
  exists l, fhs_rep (ad_headers c) l /\ fhs_cursor (ad_headers c) = k /\ map fh_size l = szs.
Definition over (k : Z) (new old : list Z) : list Z :=
  firstn (Z.to_nat k) old ++ new ++ skipn (Z.to_nat k + length new) old.

Lemma over_step k x szs : 0 <= k <= zlen szs ->
  (if k <? zlen szs then replace_nth (Z.to_nat k) szs x else szs ++ [x]) = over k [x] szs.
Proof.
  intros Hk. unfold over. cbn [length app]. destruct (Z.ltb_spec k (zlen szs)) as [H|H].
  - unfold zlen in *. remember (Z.to_nat k) as n. assert (n < length szs)%nat by lia. clear -H0.
    revert szs H0. induction n as [|n IH]; intros [|y szs] H; cbn [length] in H; try lia; cbn [replace_nth firstn Nat.add skipn app]; [reflexivity|].
    f_equal. apply IH. lia.
  - unfold zlen in *. rewrite firstn_all2, skipn_all2 by lia. reflexivity.
Qed.
Lemma over_over k a b szs : 0 <= k <= zlen szs -> over (k + zlen a) b (over k a szs) = over k (a ++ b) szs.
Proof.
  intros Hk. unfold over. unfold zlen in *. replace (Z.to_nat (k + Z.of_nat (length a))) with (Z.to_nat k + length a)%nat by lia.
  set (n := Z.to_nat k). assert (n <= length szs)%nat by lia. clearbody n.
  assert (L : length (firstn n szs) = n) by (rewrite firstn_length; lia).
  rewrite firstn_app, L. rewrite (firstn_all2 (firstn n szs)) by lia.
  replace (n + length a - n)%nat with (length a) by lia. rewrite firstn_app, firstn_all, Nat.sub_diag. cbn [firstn].
  rewrite app_nil_r, <- !app_assoc. do 3 f_equal.
  rewrite skipn_app, L. rewrite skipn_all2 by lia. cbn [app].
  replace (n + length a + length b - n)%nat with (length a + length b)%nat by lia.
  rewrite skipn_app. rewrite skipn_all2 by lia. cbn [app].
  replace (length a + length b - length a)%nat with (length b) by lia.
  rewrite skipn_plus, app_length. f_equal. lia.
Qed.
Lemma zlen_over k a szs : 0 <= k <= zlen szs -> zlen (over k a szs) = Z.max (zlen szs) (k + zlen a).
Proof.
  intros Hk. unfold over. rewrite !zlen_app, zlen_firstn, zlen_skipn. unfold zlen in *. lia.
Qed.

Lemma push_over p hs l e sz cur init h hs' :
  fhs_rep hs l -> 0 <= fhs_cursor hs <= zlen l -> 0 <= e < 16 -> zlen l + 1 < 2 ^ 32 ->
  fhs_push p hs (mkFH e sz cur init h) = Ok hs' ->
  exists l', fhs_rep hs' l' /\ fhs_cursor hs' = fhs_cursor hs + 1 /\ map fh_size l' = over (fhs_cursor hs) [sz] (map fh_size l).
Proof.
  intros HR HC He Hn H.
  assert (E : fhs_push p hs (mkFH e sz cur init h) = fhs_push p hs (mkFH e sz (uwrap 64 cur) init h)).
  { unfold fhs_push. cbn [fh_bit_cursor fh_exponent fh_size fh_is_init fh_history].
    rewrite (uwrap_small 64 (uwrap 64 cur)) by (apply uwrap_range; lia). reflexivity. }
  rewrite E in H.
  destruct (fhs_push_rep p hs l (mkFH e sz (uwrap 64 cur) init h)) as (f' & E' & R' & C'); auto; try lia.
  - split; cbn [fh_exponent fh_bit_cursor]; auto. apply uwrap_range. lia.
  - rewrite H in E'. injection E' as <-. eexists. split; [exact R'|]. split; [exact C'|].
    rewrite <- over_step by (rewrite zlen_map; lia). rewrite zlen_map. unfold push_at.
    destruct (fhs_cursor hs <? zlen l); [now rewrite map_replace_nth|now rewrite map_app].
Qed.
Lemma encode_frame_over p c s hs l pcm c' s' hs' :
  fhs_rep hs l -> 0 <= fhs_cursor hs <= zlen l -> zlen l + 1 < 2 ^ 32 ->
  encode_frame p c s hs pcm = Ok (c', s', hs') ->
  exists l', fhs_rep hs' l' /\ fhs_cursor hs' = fhs_cursor hs + 1 /\
    map fh_size l' = over (fhs_cursor hs) [uwrap 16 (zlen pcm)] (map fh_size l).
Proof.
  intros HR HC Hn H. unfold encode_frame in H. destruct (fc_state c); [| |discriminate].
  - inv_bind H. destruct a as [s1 h1]. inv_bind H. inv_bind H. inv_bind H. inv_bind H. destruct a2 as [s2 h2].
    injection H as _ _ <-. apply exponent_range in Ha1.
    eapply push_over; [exact HR|exact HC| |exact Hn|exact Ha2].
    rewrite uwrap_small by (change (2 ^ 8) with 256; lia). lia.
  - inv_bind H. inv_bind H. inv_bind H. destruct a1 as [s2 h2].
    injection H as _ _ <-. apply exponent_range in Ha.
    eapply push_over; [exact HR|exact HC| |exact Hn|exact Ha0].
    rewrite uwrap_small by (change (2 ^ 8) with 256; lia). lia.
Qed.
Lemma encode_channel_over p pcm ch n c j c' info k szs :
  sized_at c info k szs -> 0 <= k <= zlen szs -> 0 <= n -> zlen szs + 1 < 2 ^ 32 ->
  encode_channel p pcm ch n c j = Ok c' -> sized_at c' info (k + 1) (over k [n mod 65536] szs).
Proof.
  intros (Hi & l & HR & HC & HM) Hk Hn0 Hn H. unfold encode_channel in H. inv_bind H. inv_bind H. destruct a0 as [sq smp].
  inv_bind H. inv_bind H. destruct a1 as [[fc s] hs]. inv_bind H. injection H as <-.
  split; [exact Hi|]. cbn [ad_headers].
  rewrite <- HM in Hn, Hk. rewrite zlen_map in Hn, Hk.
  destruct (encode_frame_over _ _ _ _ _ _ _ _ _ HR ltac:(lia) Hn Ha2) as (l' & R' & C' & M').
  exists l'. split; [exact R'|]. split; [lia|]. rewrite M', HM, HC. do 2 f_equal.
  apply length_dither in Ha0. apply length_mapM in Ha. rewrite length_range in Ha.
  unfold zlen, uwrap. rewrite Ha0, Ha. change (2 ^ 16) with 65536. f_equal. lia.
Qed.
Lemma encode_channels_over p pcm ch n js c c' info k szs :
  sized_at c info k szs -> 0 <= k <= zlen szs -> 0 <= n -> zlen szs + zlen js < 2 ^ 32 ->
  foldM (encode_channel p pcm ch n) js c = Ok c' ->
  sized_at c' info (k + zlen js) (over k (repeat (n mod 65536) (length js)) szs).
Proof.
  revert c k szs; induction js as [|j js IH]; intros c k szs HS Hk Hn0 Hn H; cbn [foldM] in H.
  - injection H as <-. change (zlen (@nil Z)) with 0. cbn [length repeat]. unfold over. cbn [length app].
    rewrite Nat.add_0_r, firstn_skipn, Z.add_0_r. exact HS.
  - inv_bind H. rewrite zlen_cons in *. pose proof (zlen_nonneg js).
    eapply encode_channel_over in Ha; eauto; [|lia].
    assert (L : zlen (over k [n mod 65536] szs) = Z.max (zlen szs) (k + 1)) by (apply (zlen_over k [n mod 65536]); lia).
    eapply IH in H; [|exact Ha|lia|exact Hn0|lia].
    pose proof (over_over k [n mod 65536] (repeat (n mod 65536) (length js)) szs Hk) as EO.
    change (zlen [n mod 65536]) with 1 in EO. rewrite EO in H.
    cbn [length repeat]. replace (k + (1 + zlen js)) with (k + 1 + zlen js) by lia. exact H.
Qed.
Lemma encode_all_over p pcms c c' info k szs :
  let ch := si_channels info in
  0 < ch -> sized_at c info k szs -> 0 <= k <= zlen szs -> zlen szs + ch * zlen pcms < 2 ^ 32 ->
  encode_all p c pcms = Ok c' -> sized_at c' info (k + ch * zlen pcms) (over k (stored_sizes ch pcms) szs).
Proof.
  cbv zeta. intros Hch. revert c k szs; induction pcms as [|pcm pcms IH]; intros c k szs HS Hk Hn H; cbn [encode_all foldM] in H.
  - injection H as <-. change (zlen (@nil (list f32))) with 0. cbn [stored_sizes flat_map]. unfold over. cbn [length app].
    rewrite Nat.add_0_r, firstn_skipn, Z.mul_0_r, Z.add_0_r. exact HS.
  - unfold encode_all in H. cbn [foldM] in H. inv_bind H. inv_bind Ha. destruct a0 as [c1 r]. injection Ha as <-.
    fold (encode_all p c1 pcms) in H.
    unfold ad_encode, ad_info in Ha0. rewrite (proj1 HS) in Ha0. cbn [expect bind] in Ha0.
    rewrite udiv_ok in Ha0 by lia. cbn [bind] in Ha0. inv_bind Ha0. injection Ha0 as -> _.
    rewrite zlen_cons in *. pose proof (zlen_nonneg pcms).
    assert (Lr : zlen (range (si_channels info)) = si_channels info) by (rewrite zlen_range; lia).
    eapply encode_channels_over in Ha; [|exact HS|exact Hk| |].
    2: { apply Z.div_pos; [apply zlen_nonneg|lia]. }
    2: { rewrite Lr. nia. }
    rewrite Lr, length_range in Ha. set (row := repeat _ _) in *.
    assert (Lrow : zlen row = si_channels info) by (subst row; rewrite zlen_repeat; lia).
    assert (L : zlen (over k row szs) = Z.max (zlen szs) (k + si_channels info)) by (rewrite zlen_over by lia; lia).
    eapply IH in H; [|exact Ha|lia|nia].
    pose proof (over_over k row (stored_sizes (si_channels info) pcms) szs Hk) as EO. rewrite Lrow in EO. rewrite EO in H.
    cbn [stored_sizes flat_map]. fold row. fold (stored_sizes (si_channels info) pcms).
    replace (k + si_channels info * (1 + zlen pcms)) with (k + si_channels info + si_channels info * zlen pcms) by lia. exact H.
Qed.
Lemma sized_at_sized c info szs : sized_at c info (zlen szs) szs -> sized c info szs.
Proof. intros (Hi & l & H1 & H2 & H3). split; [exact Hi|]. exists l. rewrite <- H3, zlen_map in H2. auto. Qed.
Lemma sized_rewind c info szs : sized c info szs -> sized_at (ad_init c) info 0 szs.
Proof. intros (Hi & l & H1 & H2 & H3). split; [exact Hi|]. exists l. split; [exact H1|]. split; [reflexivity|exact H3]. Qed.
Lemma sized_same c c' info szs : same_recording c c' -> sized c info szs -> sized_at (ad_init c') info 0 szs.
Proof.
  intros (HT & HI & _) (Hi & l & H1 & H2 & H3). split; [cbn; congruence|]. exists l. split; [|split; [reflexivity|exact H3]].
  cbn [ad_init ad_headers]. rewrite HT. exact H1.
Qed.
