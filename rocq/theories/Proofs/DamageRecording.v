(** * Damaged recordings: from the bytes of the file to the paired decoders *)
From Coq Require Import ZArith List Bool Lia.
From Verif Require Import Model.Base Model.F32 Model.Sample Model.BitStream Model.NibbleList Model.BitVec
  Model.CircularStack Model.Frame Model.Adhoc Model.Bincode Spec.Bits Spec.Codec Spec.Recording Spec.Frames Spec.Files Spec.Seeking Spec.Damage
  Proofs.BaseFacts Proofs.BitStreamFacts Proofs.BitLog Proofs.Rice Proofs.Containers Proofs.Headers Proofs.FrameFacts Proofs.EncodeFacts
  Proofs.DecodeFacts Proofs.RoundTrip Proofs.FrameLaws Proofs.AnyState Proofs.TypeFacts Proofs.FileFacts Proofs.Memory Proofs.SeekFacts Proofs.SeekRecording
  Proofs.DamageFacts Proofs.DamagePair Proofs.DamageFile Properties.FileProps.
Import ListNotations.
Open Scope Z_scope.

(** ** The header lists are at least as long as the header count says, in every session *)
Definition table_len (h : frame_headers) : Prop :=
  fhs_len h <= zlen (fhs_sizes h) /\ fhs_len h <= zlen (fhs_cursors h) /\ fhs_len h <= zlen (fhs_hists h).
Lemma push_len p h x h' : 0 <= fhs_len h -> table_len h -> fhs_push p h x = Ok h' -> 0 <= fhs_len h' /\ table_len h'.
Proof.
  intros H0 (T1 & T2 & T3) H. unfold fhs_push in H. inv_bind H. inv_bind H. injection H as <-.
  unfold table_len, fhs_len, nl_len in *. cbn [fhs_set_cursor fhs_exps fhs_sizes fhs_cursors fhs_hists].
  destruct (_ <=? _) in Ha.
  - inv_bind Ha. inv_bind Ha. injection Ha as <-. cbn [fhs_set_cursor fhs_exps fhs_sizes fhs_cursors fhs_hists].
    unfold nl_push in Ha1. do 3 inv_bind Ha1. injection Ha1 as <-. cbn [nl_count].
    rewrite !zlen_app, !zlen_cons. change (zlen (@nil Z)) with 0. change (zlen (@nil (Z * Z * Z))) with 0.
    pose proof (uchk_fits p 32 _ _ ltac:(lia) Ha4) as [F0 F1].
    assert (a4 <= nl_count (fhs_exps h) + 1).
    { unfold uchk in Ha4. destruct (in_u 32 _); [injection Ha4 as <-; lia|]. destruct p; [discriminate|]. injection Ha4 as <-. apply Z.mod_le; lia. }
    lia.
  - do 3 inv_bind Ha. injection Ha as <-. cbn [fhs_set_cursor fhs_exps fhs_sizes fhs_cursors fhs_hists].
    apply zlen_store in Ha1, Ha2, Ha3. rewrite Ha1, Ha2, Ha3.
    assert (E : nl_count (nl_set (fhs_exps h) (fhs_cursor h) (fh_exponent x)) = nl_count (fhs_exps h)).
    { unfold nl_set. destruct (_ <=? _); reflexivity. }
    rewrite E. auto.
Qed.
Definition long (c : adhoc) : Prop := 0 <= fhs_len (ad_headers c) /\ table_len (ad_headers c).
Lemma encode_frame_long p fc s hs pcm fc' s' hs' : 0 <= fhs_len hs -> table_len hs -> encode_frame p fc s hs pcm = Ok (fc', s', hs') ->
  0 <= fhs_len hs' /\ table_len hs'.
Proof.
  intros H0 HL H. unfold encode_frame in H. destruct (fc_state fc); [| |discriminate].
  - inv_bind H. destruct a as [? ?]. inv_bind H. inv_bind H. inv_bind H. inv_bind H. destruct a2. injection H as _ _ <-.
    eapply push_len; eauto.
  - inv_bind H. inv_bind H. inv_bind H. destruct a1. injection H as _ _ <-. eapply push_len; eauto.
Qed.
Lemma encode_channel_long p pcm n k c j c' : long c -> encode_channel p pcm n k c j = Ok c' -> long c'.
Proof.
  intros [H0 HL] H. unfold encode_channel in H. inv_bind H. inv_bind H. destruct a0. inv_bind H. inv_bind H. destruct a1 as [[fc s] hs].
  inv_bind H. injection H as <-. eapply encode_frame_long; eauto.
Qed.
Lemma same_long c c' : same_recording c c' -> long c -> long c'.
Proof. intros (ST & _) H. unfold long. rewrite ST. exact H. Qed.
Lemma encode_long p c pcm c' r : long c -> ad_encode p c pcm = Ok (c', r) -> long c'.
Proof.
  intros L H. unfold ad_encode in H. inv_bind H. inv_bind H. inv_bind H. injection H as <- _.
  clear -L Ha1. revert c L Ha1. induction (range (si_channels a)) as [|j l IH]; intros c L H; cbn [foldM] in H; [now injection H as <-|].
  inv_bind H. apply (IH a2); auto. eapply encode_channel_long; eauto.
Qed.
Lemma session_long p acts : forall c c', long c -> session p acts c = Ok c' -> long c'.
Proof.
  unfold session. induction acts as [|a acts IH]; intros c c' L H; cbn [foldM] in H; [now injection H as <-|].
  inv_bind H. apply (IH a0); auto. destruct a as [pcm|op].
  - cbn [act] in Ha. inv_bind Ha. destruct a. injection Ha as <-. eapply encode_long; eauto.
  - eapply same_long; [|exact L]. apply (play_same p [op]). unfold play_all. cbn [foldM]. change (act p c (Do op)) with (play p c op) in Ha. now rewrite Ha.
Qed.
Lemma new_long info level : long (new_codec info level).
Proof. split; [cbn; lia|]. split; [|split]; cbn; lia. Qed.

(** ** The codec that is loaded *)
Definition loaded (c : adhoc) (info : stream_info) : adhoc :=
  mkAdhoc (fhs_reset (ad_headers c)) (repeat fc_new (Z.to_nat (si_channels info)))
    (mkAS (Some info) (bs_seek_start (as_stream (ad_stream c)))) (ad_level c) (f32_of_Z (2 ^ ad_level c)) (fdiv f1 (f32_of_Z (2 ^ ad_level c))) 314.

Lemma small_in_memory c info : as_info (ad_stream c) = Some info -> zlen (ad_save c) < 2 ^ 56 ->
  in_memory c /\ zlen (bs_binary (as_stream (ad_stream c))) < 2 ^ 52.
Proof.
  intros Hi Hz. rewrite (zlen_save c info Hi) in Hz. unfold in_memory.
  pose proof (zlen_nonneg (nl_data (fhs_exps (ad_headers c)))). pose proof (zlen_nonneg (bv_binary (fhs_inits (ad_headers c)))).
  pose proof (zlen_nonneg (fhs_sizes (ad_headers c))). pose proof (zlen_nonneg (fhs_cursors (ad_headers c))).
  pose proof (zlen_nonneg (fhs_hists (ad_headers c))). pose proof (zlen_nonneg (bs_binary (as_stream (ad_stream c)))).
  change (2 ^ 56) with 72057594037927936 in Hz. change (2 ^ 64) with 18446744073709551616. change (2 ^ 52) with 4503599627370496. repeat split; lia.
Qed.
Lemma fits_with_chunks c chunks : fits c -> zlen chunks = zlen (bs_binary (as_stream (ad_stream c))) -> Forall (in_range_u 128) chunks ->
  fits (with_chunks c chunks).
Proof. intros [F1 F2 F3 F4 F5 F6 F7] Hz HR. constructor; auto. cbn. now rewrite Hz. Qed.

Lemma load_damaged q p info level acts c a b file' :
  info_fits info -> session p acts (new_codec info level) = Ok c -> zlen (ad_save c) < 2 ^ 56 ->
  (data_start c <= a)%nat -> (b <= data_end c)%nat -> altered a b (ad_save c) file' ->
  exists chunks, ad_load q (ad_save c) = Ok (Some (loaded c info)) /\ ad_load q file' = Ok (Some (loaded (with_chunks c chunks) info)) /\
    zlen chunks = zlen (bs_binary (as_stream (ad_stream c))) /\ Forall (in_range_u 128) chunks /\
    (forall i, 0 <= i -> i / 8 < Z.of_nat (a - data_start c) \/ Z.of_nat (b - data_start c) <= i / 8 ->
      mbit chunks i = mbit (bs_binary (as_stream (ad_stream c))) i).
Proof.
  intros HI H HZ Ha Hb HA. assert (G : AnyState.good info c) by (eapply session_good; [apply new_good; apply HI|eauto]). destruct G as (G1 & G2 & _).
  destruct (small_in_memory c info G1 HZ) as [M _]. pose proof (session_fits _ _ _ _ _ HI H M) as HF.
  destruct (session_scale p acts _ _ H) as (_ & _ & Sl).
  assert (L : 0 <= ad_level c <= 10) by (rewrite Sl; cbn; apply zclamp_range; lia).
  destruct (altered_chunks c a b file' Ha Hb HA) as (chunks & -> & Hz & HR & HBits). exists chunks.
  split; [|split; [|auto]].
  - rewrite <- (app_nil_r (ad_save c)). now apply load_spec; [| |lia].
  - rewrite <- (app_nil_r (ad_save _)). rewrite (load_spec q (with_chunks c chunks) info []); auto.
    + now apply fits_with_chunks.
    + cbn. lia.
Qed.

Lemma loaded_good c info chunks : long c -> fhs_len (ad_headers c) < 2 ^ 32 -> Forall (fun x => 0 <= x < 65536) (fhs_sizes (ad_headers c)) ->
  chunks_ok chunks -> zlen chunks < 2 ^ 56 -> bs_binary (as_stream (ad_stream c)) = chunks ->
  DamageFacts.good (zlen chunks) (codec_state_of (loaded c info)).
Proof.
  intros [L0 (L1 & L2 & L3)] HL HS HC Hz HB. unfold codec_state_of, DamageFacts.good, loaded. cbn [ad_channels ad_headers ad_stream as_stream].
  pose proof (zlen_nonneg chunks) as Z0. split; [exact Z0|]. split; [constructor; [exact (conj L0 HL)|exact L1|exact L2|exact L3|exact HS|cbn; lia]|]. split; [|split; [|split]].
  - split; [split; cbn [bs_seek_start set_bit_cursor bs_cursor bs_binary]; rewrite HB; [lia|exact HC]|].
    intros i Hi. cbn [bs_seek_start set_bit_cursor bs_binary]. rewrite HB. unfold mbit, mchunk. rewrite nth_overflow; [apply Z.bits_0|].
    assert (zlen chunks <= i / 128) by (apply Z.div_le_lower_bound; lia). unfold zlen in H. lia.
  - apply Forall_forall. intros x Hx. apply repeat_spec in Hx. subst x. discriminate.
  - unfold reached, left. change (fhs_len (fhs_reset (ad_headers c))) with (fhs_len (ad_headers c)).
    cbn [bs_seek_start set_bit_cursor bs_cursor fhs_reset fhs_set_cursor fhs_cursor]. unfold COST. lia.
  - change (fhs_len (fhs_reset (ad_headers c))) with (fhs_len (ad_headers c)). unfold COST.
    change (2 ^ 56) with 72057594037927936 in Hz. change (2 ^ 64) with 18446744073709551616. change (2 ^ 32) with 4294967296 in HL. lia.
Qed.
Lemma shapes_new n : Forall2 shape (repeat fc_new n) (repeat fc_new n).
Proof. induction n; cbn [repeat]; constructor; auto. split; reflexivity. Qed.
Lemma zsum_sub l n : Forall (fun x => 0 <= x < 65536) l -> zsum (map (Z.add 3) (firstn n l)) <= zsum (map (Z.add 3) l).
Proof.
  unfold zsum. intros H. revert n; induction H as [|x l Hx Hl IH]; intros [|n]; cbn [firstn map fold_right]; try lia.
  - assert (0 <= fold_right Z.add 0 (map (Z.add 3) l)); [|lia]. clear -Hl. induction Hl; cbn [map fold_right]; lia.
  - specialize (IH n). lia.
Qed.
Lemma loaded_supply c info : Forall (fun x => 0 <= x < 65536) (fhs_sizes (ad_headers c)) ->
  supply (codec_state_of (loaded c info)) <= zsum (map (Z.add 3) (fhs_sizes (ad_headers c))).
Proof.
  intros HS. unfold supply, codec_state_of, loaded, channels_of, headers_in. cbn [fst snd ad_channels ad_headers].
  assert (E : zsum (map (fun fc => zlen (fc_buffer fc)) (repeat fc_new (Z.to_nat (si_channels info)))) = 0).
  { unfold zsum. induction (Z.to_nat (si_channels info)); cbn [repeat map fold_right]; auto. }
  rewrite E. unfold left_samples. cbn [fhs_reset fhs_set_cursor fhs_cursor fhs_sizes skipn]. change (Z.to_nat 0) with 0%nat. cbn [skipn].
  apply zsum_sub; auto.
Qed.

(** ** The recording behind it *)
Lemma make_rows_app x : forall sts y, exists r, make_rows sts (x ++ y) = make_rows sts x ++ r.
Proof.
  induction x as [|a x IH]; intros sts y; cbn [make_rows app]; [eauto|]. destruct (IH (next_sts sts a) y) as [r ->]. eauto.
Qed.
Lemma quant_calls_app inv ch A : forall base B, exists r, quant_calls inv base ch (A ++ B) = quant_calls inv base ch A ++ r.
Proof. induction A as [|a A IH]; intros base B; cbn [quant_calls app]; [eauto|]. destruct (IH (base + Z.to_nat (ch * (zlen a / ch)))%nat B) as [r ->]. eauto. Qed.
Lemma frames_app inv ch A B : exists r, frames_of inv ch (A ++ B) = frames_of inv ch A ++ r.
Proof. unfold frames_of. destruct (quant_calls_app inv ch A 0 B) as [q ->]. apply make_rows_app. Qed.
Lemma recording_ok_app ch A B : recording_ok ch (A ++ B) -> recording_ok ch A.
Proof.
  intros (H1 & H2 & H3 & H4 & H5). split; auto. apply Forall_app in H3. rewrite zlen_app in H4. rewrite concat_app, zlen_app in H5.
  pose proof (zlen_nonneg B). pose proof (zlen_nonneg (concat B)). split; [destruct A; auto|]. split; [apply H3|]. split; [nia|lia].
Qed.

Lemma encoded_parts p info level A B ct c :
  0 <= level -> info_fits info -> recording_ok (si_channels info) (A ++ B) ->
  encode_all p (new_codec info level) A = Ok ct -> encode_all p ct B = Ok c ->
  exists rowsA rowsB, let rows := rowsA ++ rowsB in
    rows = frames_of (inv_gain level) (si_channels info) (A ++ B) /\ rowsA = frames_of (inv_gain level) (si_channels info) A /\
    encode_all p (new_codec info level) (A ++ B) = Ok c /\
    bits_used ct = zlen (bits_of (concat rowsA)) /\
    mem_ok (bs_binary (as_stream (ad_stream c))) (concat rows) /\
    rows_ok p (repeat None (Z.to_nat (si_channels info))) rows /\
    fhs_rep (ad_headers c) (headers_of 0 (concat rows)).
Proof.
  intros Hlv HI HR E1 E2. set (ch := si_channels info) in *. destruct (frames_app (inv_gain level) ch A B) as [rowsB HB].
  exists (frames_of (inv_gain level) ch A), rowsB. cbv zeta. rewrite <- HB. split; auto. split; auto.
  assert (E : encode_all p (new_codec info level) (A ++ B) = Ok c).
  { unfold encode_all in *. rewrite foldM_app, E1. exact E2. }
  split; [exact E|]. pose proof (recording_ok_app _ _ _ HR) as HRA.
  destruct (encode_recording p info level A HRA (encoded_safe p info level A ct HRA E1)) as (ct' & E1' & _ & R1 & _).
  rewrite E1 in E1'. injection E1' as <-.
  destruct (encode_recording p info level (A ++ B) HR (encoded_safe p info level (A ++ B) c HR E)) as (c' & E' & _ & R & HM & HO).
  rewrite E in E'. injection E' as <-. rewrite (new_codec_inv info level Hlv) in *. fold ch in R1, R, HM, HO.
  split; [|split; [exact HM|split; [exact HO|]]].
  - destruct R1 as [_ _ _ _ (_ & _ & Hc & _) _ _]. exact Hc.
  - destruct R as [_ _ _ _ _ [HH _] _]. exact HH.
Qed.

Lemma mem_at_same m m' fs a row : mem_at m fs a row -> zlen m' = zlen m ->
  (forall i, zlen (bits_of a) <= i < zlen (bits_of (a ++ row)) -> mbit m' i = mbit m i) -> mem_at m' fs a row.
Proof.
  intros (H1 & H2 & H3 & H4) Hz HE. split; [|rewrite Hz; auto]. intros j Hj. rewrite HE; [now apply H1|].
  rewrite bits_of_app, zlen_app. pose proof (zlen_nonneg (bits_of a)). lia.
Qed.

Lemma init_dec_inv p c info m rows :
  zlen (ad_channels c) = si_channels info ->
  Forall (fun fc => hist_any (fc_history fc)) (ad_channels c) ->
  chunks_ok (bs_binary (as_stream (ad_stream c))) -> ext m (bs_binary (as_stream (ad_stream c))) ->
  fhs_rep (ad_headers c) (headers_of 0 (concat rows)) ->
  rows_ok p (repeat None (Z.to_nat (si_channels info))) rows -> 0 < si_channels info ->
  dec_inv p (codec_state_of (ad_init c)) m [] rows (repeat (None, []) (Z.to_nat (si_channels info))) 0.
Proof.
  intros Hn HA HW HX HH HO Hpos. constructor.
  - cbn [codec_state_of ad_init ad_channels ad_stream as_stream ad_headers dec_at concat app].
    split; [|split].
    + rewrite <- Hn, to_nat_zlen. clear -HA. induction HA; cbn [map length repeat]; constructor; auto.
      repeat split; auto.
    + split; [|split].
      * split; auto. cbn [bs_seek_start set_bit_cursor bs_cursor bs_binary].
        pose proof (zlen_nonneg (bs_binary (as_stream (ad_stream c)))). lia.
      * exact HX.
      * reflexivity.
    + split; [exact HH|reflexivity].
  - unfold even. apply Forall_forall. intros x Hx. apply repeat_spec in Hx. subst. reflexivity.
  - replace (map fst (repeat (@None hist, @nil f32) (Z.to_nat (si_channels info))))
      with (repeat (@None hist) (Z.to_nat (si_channels info))); auto.
    clear. induction (Z.to_nat (si_channels info)); cbn; congruence.
  - destruct (Z.to_nat (si_channels info)) eqn:E; [lia|discriminate].
  - left; auto.
Qed.
Lemma init_loaded c info : ad_init (loaded c info) = loaded c info.
Proof.
  unfold ad_init, loaded. cbn [ad_headers ad_channels ad_stream as_info as_stream ad_level ad_scale ad_inv_scale ad_seq]. f_equal.
  induction (Z.to_nat (si_channels info)); cbn [repeat map]; f_equal; auto.
Qed.
Lemma loaded_dec_inv p c info rows m : bs_binary (as_stream (ad_stream c)) = m -> chunks_ok m ->
  fhs_rep (ad_headers c) (headers_of 0 (concat rows)) ->
  rows_ok p (repeat None (Z.to_nat (si_channels info))) rows -> 0 < si_channels info ->
  dec_inv p (codec_state_of (loaded c info)) m [] rows (repeat (None, []) (Z.to_nat (si_channels info))) 0.
Proof.
  intros HB HC HH HO Hpos. rewrite <- init_loaded. apply init_dec_inv; auto.
  - cbn [loaded ad_channels]. rewrite zlen_repeat. lia.
  - apply Forall_forall. intros x Hx. apply repeat_spec in Hx. subst x. apply hist_any_new.
  - cbn. now rewrite HB.
  - cbn. rewrite HB. apply ext_refl.
Qed.
