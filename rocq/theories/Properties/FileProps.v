(** * Properties C22, C23, C24, C33 (loading), C51: .adhoc files

    [fits] and [in_memory] (Spec/Files.v) say that values are in the range of their Rust types;
    [session] and [hear_all] (Spec/Frames.v) are arbitrary sequences of API calls. *)
From Coq Require Import ZArith List Bool Lia.
From Verif Require Import Model.Base Model.F32 Model.Sample Model.BitStream Model.NibbleList Model.BitVec Model.CircularStack
  Model.Frame Model.Adhoc Model.Bincode Spec.Recording Spec.Frames Spec.Files
  Proofs.BaseFacts Proofs.FrameFacts Proofs.AnyState Proofs.FileFacts Proofs.TypeFacts Proofs.Replica Proofs.RoundTrip Proofs.EncodeFacts
  Properties.Demo Properties.RoundTripProps.
Import ListNotations.
Open Scope Z_scope.

(** The conditions on values hold in every session. *)
Lemma session_fits p info level acts c : info_fits info ->
  session p acts (new_codec info level) = Ok c -> in_memory c -> fits c.
Proof.
  intros [Hr Hc] H (M1 & M2 & M3 & M4 & M5 & M6). pose proof (session_typed p acts _ _ (new_typed info level Hr Hc) H) as [(F & (S1 & S2 & S3) & T) L I].
  destruct T. constructor; auto. constructor; auto.
Qed.
Lemma load_spec q c info rest : fits c -> as_info (ad_stream c) = Some info -> ad_level c <= 30 ->
  ad_load q (ad_save c ++ rest) = Ok (Some (mkAdhoc (fhs_reset (ad_headers c)) (repeat fc_new (Z.to_nat (si_channels info)))
    (mkAS (Some info) (bs_seek_start (as_stream (ad_stream c)))) (ad_level c) (f32_of_Z (2 ^ ad_level c)) (fdiv f1 (f32_of_Z (2 ^ ad_level c))) 314)).
Proof.
  intros HF Hi Hl. pose proof (inverts_codec c HF) as [R _]. unfold ad_load. rewrite R.
  assert (E : sshl q 32 1 (ad_level c) = Ok (2 ^ ad_level c)).
  { destruct (fits_level _ HF) as [L0 _]. unfold sshl, in_u. destruct (Z.leb_spec 0 (ad_level c)); [|lia].
    destruct (Z.ltb_spec (ad_level c) (2 ^ 32)); [|lia]. destruct (Z.ltb_spec (ad_level c) 32); [|lia]. cbn [andb].
    rewrite Z.shiftl_mul_pow2, Z.mul_1_l by lia. rewrite swrap_small; auto; [lia|].
    assert (0 < 2 ^ ad_level c) by (apply Z.pow_pos_nonneg; lia).
    assert (2 ^ ad_level c <= 2 ^ 30) by (apply Z.pow_le_mono_r; lia). change (2 ^ (32 - 1)) with (2 * 2 ^ 30). lia. }
  rewrite E. cbn [bind]. rewrite Hi. unfold ad_init. cbn [ad_headers ad_channels ad_stream ad_level ad_scale ad_inv_scale ad_seq].
  rewrite Hi. do 3 f_equal. generalize (Z.to_nat (si_channels info)). induction n; cbn [repeat map]; f_equal; auto.
Qed.

(** ** C22: saved files load back *)
Theorem C22_load_after_save : forall p q info level acts c,
  info_fits info -> session p acts (new_codec info level) = Ok c -> in_memory c ->
  exists c', ad_load q (ad_save c) = Ok (Some c') /\
    (forall r ops, hear_all r ops c' = hear_all r ops (ad_init c)) /\
    (forall r, ad_info c' = Ok info /\ ad_sample_count r c' = ad_sample_count r c) /\
    ad_save c' = ad_save (ad_init c).
Proof.
  intros p q info level acts c HI H M. pose proof (session_fits _ _ _ _ _ HI H M) as HF.
  destruct HI as [Hr Hc]. pose proof (session_typed p acts _ _ (new_typed info level Hr Hc) H) as [(F & _ & _) _ _].
  assert (G : good info c) by (eapply session_good; [apply new_good; apply Hc|eauto]). destruct G as (G1 & G2 & _).
  destruct (session_scale p acts _ _ H) as (Sc & _ & Sl).
  assert (L : 0 <= ad_level c <= 10) by (rewrite Sl; cbn; apply zclamp_range; lia).
  assert (Sc' : ad_scale c = f32_of_Z (2 ^ ad_level c)).
  { rewrite Sc, Sl. cbn [new_codec ad_with_level ad_scale ad_level]. rewrite Z.shiftl_mul_pow2 by (apply zclamp_range; lia). now rewrite Z.mul_1_l. }
  pose proof (load_spec q c info [] HF G1 ltac:(lia)) as E. rewrite app_nil_r in E. eexists. split; [exact E|]. split; [|split].
  - intros r ops. apply hear_replica. constructor.
    + repeat split. cbn [fst ad_channels ad_init].
      replace (repeat fc_new (Z.to_nat (si_channels info))) with (map (fun _ => fc_new) (ad_channels c)).
      * clear -F. induction F as [|fc l [Hf HA] F IH]; cbn [map]; constructor; auto.
        constructor; cbn; auto. apply hist_any_new.
      * rewrite <- G2, to_nat_zlen. clear. induction (ad_channels c); cbn; f_equal; auto.
    + cbn. auto.
    + cbn. auto.
  - intros r. split; [reflexivity|]. unfold ad_sample_count, ad_info. rewrite G1. reflexivity.
  - unfold ad_save, ad_init. cbn [ad_headers ad_channels ad_stream ad_level as_info as_stream]. now rewrite G1.
Qed.
Print Assumptions C22_load_after_save.
(** With C06: from samples through a file back to the quantised samples. *)
Theorem C22_file_round_trip : forall p info level pcms,
  let ch := si_channels info in
  info_fits info -> 0 <= level -> recording_ok ch pcms -> no_long_gap ch pcms ->
  (forall c, 0 <= c < ch -> tame (quant_signal (inv_gain level) ch pcms c)) ->
  exists c1, encode_all p (new_codec info level) pcms = Ok c1 /\
    (in_memory c1 -> forall q, exists c2, ad_load q (ad_save c1) = Ok (Some c2) /\
      forall bufs, exists rs, hear_all p (map Listen bufs) c2 = Ok rs /\
        concat (map reported rs) = firstn (Z.to_nat (room ch bufs)) (decoded_signal level ch pcms)).
Proof.
  intros p info level pcms ch HI Hl HR HG HT. destruct (C06_round_trip p info level pcms Hl HR HG HT) as (c1 & E & HD).
  exists c1. split; [exact E|]. intros M q.
  destruct (C22_load_after_save p q info level (map Feed pcms) c1 HI) as (c2 & E2 & HH & _); auto.
  { rewrite <- E. unfold session, encode_all. clear. generalize (new_codec info level). induction pcms as [|x l IH]; intros c; cbn [map foldM]; auto.
    cbn [act]. destruct (ad_encode p c x) as [[? ?]| |]; cbn [bind]; auto. }
  exists c2. split; [exact E2|]. intros bufs. destruct (HD bufs) as (c3 & rs & E3 & R). exists rs. split; [|exact R].
  rewrite HH. clear -E3. revert rs c3 E3. generalize (ad_init c1). induction bufs as [|b bufs IH]; intros c rs c3 E3; cbn [decode_all map hear_all] in *.
  - now injection E3 as _ <-.
  - inv_bind E3. destruct a as [[c' o] k]. inv_bind E3. destruct a as [c'' rs']. injection E3 as _ <-.
    cbn [hear]. rewrite Ha. cbn [bind]. rewrite (IH _ _ _ Ha0). reflexivity.
Qed.
Print Assumptions C22_file_round_trip.
(** A stereo recording, partly played, saved and loaded: the file has 305 bytes and the loaded
    codec plays all 16 samples. *)
Example C22_applies : forall p, info_fits stereo /\
  match session p (map Feed demo ++ [Do Rewind; Do (Listen (repeat f0 6))]) (new_codec stereo 4) with
  | Ok c => in_memory c /\ length (ad_save c) = 305%nat /\
      match ad_load p (ad_save c) with
      | Ok (Some c') => match hear_all p [Listen (repeat f0 32)] c' with Ok [(_, k)] => k = Some 16 | _ => False end
      | _ => False end
  | _ => False end.
Proof. intros p. split; [unfold info_fits, in_range_u; cbn; lia|]. destruct p; vm_compute; repeat split. Qed.

(** ** C23: torn files *)
Theorem C23_torn_file : forall p c k, fits c -> (k < length (ad_save c))%nat -> ad_load p (firstn k (ad_save c)) = Ok None.
Proof. intros p c k HF Hk. destruct (inverts_codec c HF) as [_ T]. unfold ad_load. now rewrite T. Qed.
Print Assumptions C23_torn_file.
Theorem C23_trailing_bytes : forall p c rest, fits c -> ad_load p (ad_save c ++ rest) = ad_load p (ad_save c).
Proof.
  intros p c rest HF. destruct (inverts_codec c HF) as [R _]. unfold ad_load. rewrite R.
  rewrite <- (app_nil_r (ad_save c)), R. reflexivity.
Qed.
Print Assumptions C23_trailing_bytes.
(** [fits] holds in every session. *)
Theorem C23_sessions : forall p q info level acts c k, info_fits info ->
  session p acts (new_codec info level) = Ok c -> in_memory c -> (k < length (ad_save c))%nat ->
  ad_load q (firstn k (ad_save c)) = Ok None.
Proof. intros. apply C23_torn_file; auto. eapply session_fits; eauto. Qed.
Print Assumptions C23_sessions.
(** The last byte of a file matters although it only belongs to the unused [capacity] field. *)
Example C23_applies : forall p,
  match session p (map Feed demo) (new_codec stereo 4) with
  | Ok c => ad_load p (firstn 304 (ad_save c)) = Ok None /\ is_ok (ad_load p (firstn 305 (ad_save c))) = true
  | _ => False end.
Proof. intros []; vm_compute; auto. Qed.

(** ** C24: the size estimate *)
(** In bits; [capacity] is the capacity in bytes the allocator gave the exponent list. *)
Theorem C24_estimate : forall p info level acts c capacity, info_fits info ->
  session p acts (new_codec info level) = Ok c -> zlen (fhs_sizes (ad_headers c)) < 2 ^ 32 ->
  let spare := capacity - zlen (nl_data (fhs_exps (ad_headers c))) in
  8 * zlen (ad_save c) = ad_filesize_upperbound capacity c + 352 - 8 * spare /\
  (spare < 44 <-> ad_filesize_upperbound capacity c < 8 * zlen (ad_save c)).
Proof.
  intros p info level acts c capacity HI H HL spare. destruct HI as [Hr Hc].
  pose proof (session_typed p acts _ _ (new_typed info level Hr Hc) H) as [(_ & _ & T) _ _].
  assert (G : good info c) by (eapply session_good; [apply new_good; apply Hc|eauto]). destruct G as (G1 & _).
  assert (E : 8 * zlen (ad_save c) = ad_filesize_upperbound capacity c + 352 - 8 * spare).
  { rewrite (zlen_save c info G1). unfold ad_filesize_upperbound, bs_capacity_upperbound, fhs_weight_upperbound, bv_capacity, fhs_len, nl_len.
    rewrite (tf_len3 _ T), (tf_len1 _ T), (tf_len2 _ T). rewrite uwrap_small by (split; [apply zlen_nonneg|exact HL]). subst spare. lia. }
  split; [exact E|lia].
Qed.
Print Assumptions C24_estimate.
(** A new codec: 584 bits are reported, 936 written.  After [demo]: 2088 and 2440. *)
Example C24_applies : forall p,
  ad_filesize_upperbound 0 (new_codec stereo 0) = 584 /\ 8 * zlen (ad_save (new_codec stereo 0)) = 936 /\
  match session p (map Feed demo) (new_codec stereo 4) with
  | Ok c => zlen (nl_data (fhs_exps (ad_headers c))) = 4 /\ ad_filesize_upperbound 4 c = 2088 /\ 8 * zlen (ad_save c) = 2440
  | _ => False end.
Proof. intros []; vm_compute; auto. Qed.

(** ** C33: loading a file with a large level *)
Definition with_raw_level (c : adhoc) (level : Z) : adhoc :=
  mkAdhoc (ad_headers c) (ad_channels c) (ad_stream c) level (ad_scale c) (ad_inv_scale c) (ad_seq c).
Theorem C33_load_level : forall c info level, fits c -> as_info (ad_stream c) = Some info -> 0 <= level < 2 ^ 32 ->
  let file := ad_save (with_raw_level c level) in
  (level <= 31 -> forall p, is_ok (ad_load p file) = true) /\
  (32 <= level -> ad_load Debug file = Panic ArithmeticOverflow /\
    match ad_load Release file with
    | Ok (Some c') => ad_level c' = level /\ ad_scale c' = f32_of_Z (swrap 32 (2 ^ (level mod 32)))
    | _ => False end).
Proof.
  intros c info level HF Hi Hl file.
  assert (HF' : fits (with_raw_level c level)) by (destruct HF; constructor; auto).
  destruct (inverts_codec _ HF') as [R _]. specialize (R []). rewrite app_nil_r in R.
  unfold file, ad_load. rewrite R. cbn [with_raw_level ad_level ad_stream ad_headers]. rewrite Hi.
  unfold sshl, in_u. destruct (Z.leb_spec 0 level); [|lia]. destruct (Z.ltb_spec level (2 ^ 32)); [|lia]. cbn [andb]. split.
  - intros H31 p. destruct (Z.ltb_spec level 32); [|lia]. reflexivity.
  - intros H32. destruct (Z.ltb_spec level 32); [lia|]. split; [reflexivity|]. cbn -[Z.pow swrap f32_of_Z Z.shiftl Z.modulo fdiv]. split; auto.
    rewrite Z.shiftl_mul_pow2 by (apply Z.mod_pos_bound; lia). now rewrite Z.mul_1_l.
Qed.
Print Assumptions C33_load_level.
(** Level 31 makes the scale negative: -2^31. *)
Example C33_load_applies : fits (new_codec stereo 0) /\
  match ad_load Release (ad_save (with_raw_level (new_codec stereo 0) 31)) with
  | Ok (Some c') => ad_scale c' = f32_of_Z (- 2 ^ 31) | _ => False end.
Proof.
  split.
  - apply (session_fits Debug stereo 0 []); [unfold info_fits, in_range_u; cbn; lia|reflexivity|]. vm_compute. repeat split.
  - vm_compute. reflexivity.
Qed.

(** ** C51: corrupt files *)
(** Zero channels: the file loads and then everything divides by zero. *)
Theorem C51_zero_channels : forall p c info, fits c -> as_info (ad_stream c) = Some info -> si_channels info = 0 -> ad_level c <= 10 ->
  exists c', ad_load p (ad_save c) = Ok (Some c') /\
    (forall buf, ad_decode p c' buf = Panic DivisionByZero) /\ (forall pcm, ad_encode p c' pcm = Panic DivisionByZero).
Proof.
  intros p c info HF Hi Hc Hl. pose proof (load_spec p c info [] HF Hi ltac:(lia)) as E. rewrite app_nil_r in E.
  eexists. split; [exact E|]. split; intros; unfold ad_decode, ad_encode, ad_info; cbn [ad_stream as_info expect bind]; rewrite Hc; reflexivity.
Qed.
Print Assumptions C51_zero_channels.
(** More exponents than frame sizes: the file loads and then decoding indexes out of bounds. *)
Theorem C51_missing_sizes : forall p c info, fits c -> as_info (ad_stream c) = Some info -> 0 < si_channels info -> ad_level c <= 10 ->
  0 < nl_count (fhs_exps (ad_headers c)) -> fhs_sizes (ad_headers c) = [] ->
  exists c', ad_load p (ad_save c) = Ok (Some c') /\
    forall buf, si_channels info <= zlen buf -> ad_decode p c' buf = Panic IndexOutOfBounds.
Proof.
  intros p c info HF Hi Hc Hl Hn Hs. pose proof (load_spec p c info [] HF Hi ltac:(lia)) as E. rewrite app_nil_r in E.
  eexists. split; [exact E|]. intros buf Hb. unfold ad_decode, ad_info. cbn [ad_stream as_info expect bind].
  rewrite udiv_ok by lia. cbn [bind ad_channels as_stream ad_headers].
  pose proof (Z.div_str_pos (zlen buf) (si_channels info) ltac:(lia)) as P. cbn [decode_loop].
  destruct (Z.ltb_spec 0 (zlen buf / si_channels info * si_channels info)); [|nia].
  assert (N : exists n, Z.to_nat (si_channels info) = S n) by (exists (Z.to_nat (si_channels info - 1)); lia). destruct N as [n N].
  assert (B : buffers_empty (repeat fc_new (Z.to_nat (si_channels info))) = true).
  { unfold buffers_empty. clear. induction (Z.to_nat _); cbn [repeat forallb]; auto. }
  assert (HR : exists l, range (si_channels info) = 0 :: l).
  { unfold range. rewrite N. cbn [seq map]. eauto. } destruct HR as [l HR].
  set (d := (_, _, _)). assert (BA : buffer_audio p (si_channels info) MAX_DECODE_ATTEMPTS d = Panic IndexOutOfBounds).
  { unfold MAX_DECODE_ATTEMPTS. cbn [buffer_audio]. unfold d at 1. rewrite B, HR. cbn [foldM]. unfold d, decode_channel. rewrite N. cbn [repeat].
    unfold index at 1. rewrite zlen_cons. pose proof (zlen_nonneg (repeat fc_new n)). destruct (Z.ltb_spec 0 (1 + zlen (repeat fc_new n))); [|lia].
    cbn [Z.leb Z.compare andb Z.to_nat nth_error bind]. unfold decode_frame, fhs_next.
    cbn [fhs_reset fhs_set_cursor fhs_cursor fhs_sizes]. unfold fhs_len, nl_len. cbn [fhs_exps fhs_set_cursor fhs_reset].
    destruct (Z.ltb_spec 0 (nl_count (fhs_exps (ad_headers c)))); [|lia]. rewrite Hs. reflexivity. }
  rewrite BA. reflexivity.
Qed.
Print Assumptions C51_missing_sizes.
(** Both theorems apply: a file without channels, and one with a single exponent and no sizes. *)
Definition corrupt : adhoc := mkAdhoc (mkFHS (mkNL [3] 1) bv_new [] [] [] 0) [] (mkAS (Some stereo) bs_new) 0 f1 f1 314.
Example C51_applies :
  fits corrupt /\ fits (new_codec (mkInfo 48000 0) 0) /\
  match ad_load Release (ad_save corrupt) with
  | Ok (Some c) => ad_decode Release c [f0; f0] = Panic IndexOutOfBounds | _ => False end.
Proof.
  split; [|split].
  - constructor; unfold in_range_u; cbn; try lia; auto; [|intros i E; injection E as <-; cbn; lia].
    constructor; unfold in_range_u; cbn; try lia; auto. constructor; auto. lia.
  - apply (session_fits Debug (mkInfo 48000 0) 0 []); [unfold info_fits, in_range_u; cbn; lia|reflexivity|]. vm_compute. repeat split.
  - vm_compute. reflexivity.
Qed.
