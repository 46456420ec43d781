(** * Properties C59, C60, C61: damaged .adhoc files

    [altered], [data_start], [data_end] and [bits_used] are defined in Spec/Damage.v: a file
    with other bytes in part of its compressed data, and where that data lies.  [decode_all],
    [encode_all], [reported], [room], [audible], [total_blocks] are in Spec/Recording.v,
    [session] and [play_all] in Spec/Frames.v, [target_block] in Spec/Seeking.v. *)
From Coq Require Import ZArith List Bool Lia.
From Verif Require Import Model.Base Model.F32 Model.Sample Model.BitStream Model.NibbleList Model.BitVec Model.CircularStack
  Model.Frame Model.Adhoc Model.Bincode Spec.Codec Spec.Recording Spec.Frames Spec.Files Spec.Seeking Spec.Damage
  Proofs.BaseFacts Proofs.BitStreamFacts Proofs.BitLog Proofs.Headers Proofs.FrameFacts Proofs.EncodeFacts Proofs.DecodeFacts Proofs.RoundTrip Proofs.FrameLaws
  Proofs.AnyState Proofs.TypeFacts Proofs.FileFacts Proofs.Memory Proofs.SeekFacts Proofs.SeekRecording
  Proofs.DamageFacts Proofs.DamagePair Proofs.DamageFile Proofs.DamageRecording Properties.FileProps Properties.Demo.
Import ListNotations.
Open Scope Z_scope.

Lemma load_shape q file c : ad_load q file = Ok (Some c) ->
  exists lvl h s r sc info, get_codec file = Some (lvl, h, s, r) /\ as_info s = Some info /\
    c = ad_init (mkAdhoc h (repeat fc_new (Z.to_nat (si_channels info))) s lvl (f32_of_Z sc) (fdiv f1 (f32_of_Z sc)) 314).
Proof.
  unfold ad_load. destruct (get_codec file) as [[[[lvl h] s] r]|] eqn:G; [|discriminate]. intros H. inv_bind H.
  destruct (as_info s) as [info|] eqn:Hi; [|discriminate]. injection H as <-. exists lvl, h, s, r, a, info. auto.
Qed.

Lemma map_init_new n : map fc_init (repeat fc_new n) = repeat fc_new n.
Proof. induction n; cbn [repeat map]; f_equal; auto. Qed.

(** ** C59: decoding a damaged file neither panics nor hangs *)
(** Any file, of whatever origin, that loads and whose header lists are as long as its header
    count says plays without a panic, and playback ends: the samples reported in all are
    bounded by the frame sizes in the file. *)
Theorem C59_any_file_plays : forall file c info,
  Forall byte file -> zlen file < 2 ^ 56 ->
  ad_load Release file = Ok (Some c) -> ad_info c = Ok info -> 0 < si_channels info ->
  (let h := ad_headers c in
   fhs_len h <= zlen (fhs_sizes h) /\ fhs_len h <= zlen (fhs_cursors h) /\ fhs_len h <= zlen (fhs_hists h)) ->
  forall bufs, exists c' rs, decode_all Release c bufs = Ok (c', rs) /\
    zlen (concat (map reported rs)) <= si_channels info * fold_right Z.add 0 (map (Z.add 3) (fhs_sizes (ad_headers c))).
Proof.
  intros file c info HB HZ HL HI Hch HT bufs.
  destruct (load_shape _ _ _ HL) as (lvl & h & s & r & sc & info' & G & Hi & ->).
  assert (info' = info) by (unfold ad_info, ad_init in HI; cbn [ad_stream as_info] in HI; rewrite Hi in HI; now injection HI). subst info'.
  destruct (get_codec_types _ _ _ _ _ HB G) as (T1 & T2 & T3 & T4 & _).
  set (c := mkAdhoc h (repeat fc_new (Z.to_nat (si_channels info))) s lvl (f32_of_Z sc) (fdiv f1 (f32_of_Z sc)) 314) in *.
  assert (ES : codec_state_of (ad_init c) = codec_state_of (loaded c info)).
  { unfold codec_state_of, ad_init, loaded. cbn [ad_channels ad_stream as_stream ad_headers c]. do 2 f_equal.
    apply map_init_new. }
  assert (GD : DamageFacts.good (zlen (bs_binary (as_stream s))) (codec_state_of (ad_init c))).
  { rewrite ES. apply loaded_good; auto; [split; [apply T1|exact HT]|apply T1|lia]. }
  destruct (decode_all_pair Release True (zlen (bs_binary (as_stream s))) (zlen (bs_binary (as_stream s))) info (fun _ => eq_refl) bufs 0 (ad_init c) (ad_init c))
    as (c' & _ & rs & _ & E & _ & _ & _ & _ & S).
  { assert (ZC : zlen (ad_channels (ad_init c)) = si_channels info).
    { cbn [ad_init ad_channels c]. rewrite zlen_map, zlen_repeat. lia. }
    constructor; auto; try lia; try (intros; lia).
    intros _. constructor; auto. rewrite ES. unfold codec_state_of, loaded, channels_of. cbn [fst ad_channels]. apply shapes_new. }
  { left. exact I. }
  exists c', rs. split; [exact E|]. specialize (S I). rewrite ES in S. pose proof (loaded_supply c info T2) as SS.
  unfold zsum in SS. cbn [ad_headers ad_init c fhs_reset fhs_set_cursor fhs_sizes] in *. nia.
Qed.
Print Assumptions C59_any_file_plays.

(** Whatever bytes are damaged in the compressed data of a saved file, it loads, reports the
    same settings and length, and every decode call reports what it would have reported. *)
Theorem C59_damaged_data_plays : forall p info level acts c file',
  info_fits info -> 0 < si_channels info ->
  session p acts (new_codec info level) = Ok c -> zlen (ad_save c) < 2 ^ 56 ->
  altered (data_start c) (data_end c) (ad_save c) file' ->
  exists c0 c1, ad_load Release (ad_save c) = Ok (Some c0) /\ ad_load Release file' = Ok (Some c1) /\
    (forall q, ad_info c1 = ad_info c0 /\ ad_sample_count q c1 = ad_sample_count q c0) /\
    forall bufs, exists d0 d1 rs0 rs1,
      decode_all Release c0 bufs = Ok (d0, rs0) /\ decode_all Release c1 bufs = Ok (d1, rs1) /\
      map snd rs1 = map snd rs0.
Proof.
  intros p info level acts c file' HI Hch H HZ HA.
  destruct (load_damaged Release p info level acts c _ _ file' HI H HZ (Nat.le_refl _) (Nat.le_refl _) HA) as (chunks & L0 & L1 & Hz & HR & _).
  exists (loaded c info), (loaded (with_chunks c chunks) info). split; [exact L0|]. split; [exact L1|].
  split; [intros q; split; reflexivity|]. intros bufs.
  assert (G : AnyState.good info c) by (eapply session_good; [apply new_good; apply HI|eauto]). destruct G as (G1 & _).
  destruct (small_in_memory c info G1 HZ) as [_ Mb].
  pose proof (session_long p acts _ _ (new_long info level) H) as LL.
  destruct HI as [I1 I2]. pose proof (session_typed p acts _ _ (new_typed info level I1 I2) H) as [(_ & (S1 & _) & T) _ _].
  assert (HN : fhs_len (ad_headers c) < 2 ^ 32) by (destruct T; unfold in_range_u in *; unfold fhs_len, nl_len; lia).
  assert (HS : Forall (fun x => 0 <= x < 65536) (fhs_sizes (ad_headers c))) by (destruct T; assumption).
  set (bin := bs_binary (as_stream (ad_stream c))) in *.
  assert (B52 : 2 ^ 52 < 2 ^ 56) by reflexivity.
  destruct (decode_all_pair Release True (zlen bin) (zlen chunks) info (fun _ => eq_refl) bufs 0 (loaded c info) (loaded (with_chunks c chunks) info))
    as (d0 & d1 & rs0 & rs1 & E0 & E1 & ES & _).
  { assert (ZC : zlen (repeat fc_new (Z.to_nat (si_channels info))) = si_channels info) by (rewrite zlen_repeat; lia).
    constructor; auto; try lia; try (intros; lia). intros _. constructor; auto.
    - apply loaded_good; auto. lia.
    - apply (loaded_good (with_chunks c chunks)); auto. lia.
    - unfold codec_state_of, loaded, channels_of. cbn [fst ad_channels]. apply shapes_new. }
  { left. exact I. }
  exists d0, d1, rs0, rs1. auto.
Qed.
Print Assumptions C59_damaged_data_plays.

(** ** C60: damage does not reach back *)
(** Damage behind the data of the first calls leaves the samples of those calls as they were:
    a decoder that checks for overflows can play them, one that does not can go on. *)
Theorem C60_prefix_intact : forall p info level A B ct c file',
  let ch := si_channels info in
  0 <= level -> info_fits info -> recording_ok ch (A ++ B) ->
  encode_all p (new_codec info level) A = Ok ct -> encode_all p ct B = Ok c -> zlen (ad_save c) < 2 ^ 56 ->
  altered (data_start c + Z.to_nat ((bits_used ct + 7) / 8)) (data_end c) (ad_save c) file' ->
  exists c0 c1, ad_load p (ad_save c) = Ok (Some c0) /\ ad_load p file' = Ok (Some c1) /\
    forall bufs, p = Release \/ room ch bufs <= ch * audible ch 0 A ->
      exists d0 d1 rs0 rs1, decode_all p c0 bufs = Ok (d0, rs0) /\ decode_all p c1 bufs = Ok (d1, rs1) /\
        firstn (Z.to_nat (ch * audible ch 0 A)) (concat (map reported rs1)) =
          firstn (Z.to_nat (ch * audible ch 0 A)) (concat (map reported rs0)) /\
        (room ch bufs <= ch * audible ch 0 A -> rs1 = rs0).
Proof.
  intros p info level A B ct c file' ch Hlv HI HR EA EB HZ HA. pose proof HR as (Hch & _). fold ch in Hch.
  destruct (encoded_parts p info level A B ct c Hlv HI HR EA EB) as (rowsA & rowsB & Hrows & HrA & E & Hu & HM & HO & HH).
  set (rows := rowsA ++ rowsB) in *. fold ch in Hrows, HrA, HO. rewrite encode_all_session in E.
  destruct (load_damaged p p info level _ c _ _ file' HI E HZ (Nat.le_add_r _ _) (Nat.le_refl _) HA) as (chunks & L0 & L1 & Hz & HRc & HBits).
  exists (loaded c info), (loaded (with_chunks c chunks) info). split; [exact L0|]. split; [exact L1|]. intros bufs HP.
  assert (G : AnyState.good info c) by (eapply session_good; [apply new_good; apply HI|eauto]). destruct G as (G1 & _).
  destruct (small_in_memory c info G1 HZ) as [_ Mb].
  pose proof (session_long p _ _ _ (new_long info level) E) as LL. destruct HI as [I1 I2].
  pose proof (session_typed p _ _ _ (new_typed info level I1 I2) E) as [(_ & (S1 & _) & T) _ _].
  assert (HN : fhs_len (ad_headers c) < 2 ^ 32) by (destruct T; unfold in_range_u in *; unfold fhs_len, nl_len; lia).
  assert (HS : Forall (fun x => 0 <= x < 65536) (fhs_sizes (ad_headers c))) by (destruct T; assumption).
  set (bin := bs_binary (as_stream (ad_stream c))) in *.
  assert (B52 : 2 ^ 52 < 2 ^ 56) by reflexivity.
  assert (HRe : reach_run 0 rowsA = audible ch 0 A) by (rewrite HrA; apply frames_reach; eapply recording_ok_app; eauto).
  assert (M0 : mem_at bin (concat rows) (concat []) (concat rowsA)).
  { subst rows. rewrite concat_app in *. apply (mem_ok_at bin [] (concat rowsA) (concat rowsB)). exact HM. }
  assert (M1 : mem_at chunks (concat rows) (concat []) (concat rowsA)).
  { eapply mem_at_same; [exact M0|exact Hz|]. intros i Hi. change (zlen (bits_of (concat []))) with 0 in Hi. change (concat [] ++ concat rowsA) with (concat rowsA) in Hi.
    apply HBits; [lia|]. left. rewrite <- Hu in Hi. assert (0 <= bits_used ct) by (rewrite Hu; apply zlen_nonneg).
    assert (0 <= (bits_used ct + 7) / 8) by (apply Z.div_pos; lia).
    replace (data_start c + Z.to_nat ((bits_used ct + 7) / 8) - data_start c)%nat with (Z.to_nat ((bits_used ct + 7) / 8)) by lia.
    rewrite Z2Nat.id by lia. apply Z.div_lt_upper_bound; [lia|].
    pose proof (Z.div_mod (bits_used ct + 7) 8 ltac:(lia)). pose proof (Z.mod_pos_bound (bits_used ct + 7) 8 ltac:(lia)). lia. }
  destruct (decode_all_pair p (p = Release) (zlen bin) (zlen chunks) info (fun e => e) bufs (audible ch 0 A) (loaded c info) (loaded (with_chunks c chunks) info))
    as (d0 & d1 & rs0 & rs1 & E0 & E1 & _ & EF & EQ & _).
  { assert (ZC : zlen (repeat fc_new (Z.to_nat (si_channels info))) = si_channels info) by (rewrite zlen_repeat; fold ch; lia).
    constructor; auto.
    - intros _. exists bin, chunks, [], rowsA, rowsB, (repeat (None, []) (Z.to_nat (si_channels info))), 0. split; [|right; lia].
      constructor; auto; apply loaded_dec_inv; auto.
    - intros _. constructor; auto.
      + apply loaded_good; auto. lia.
      + apply (loaded_good (with_chunks c chunks)); auto. lia.
      + unfold codec_state_of, loaded, channels_of. cbn [fst ad_channels]. apply shapes_new. }
  { fold ch. rewrite Z.mul_comm. exact HP. }
  fold ch in EF, EQ. rewrite Z.mul_comm in EF, EQ. exists d0, d1, rs0, rs1. split; auto. split; auto. split; [now rewrite EF|].
  intros. now rewrite EQ.
Qed.
Print Assumptions C60_prefix_intact.

(** ** C61: seeking past damage *)
(** After damage to the data of the first calls only, a seek to a block of a later call makes
    the decoder play on as with the undamaged file, whatever was played before. *)
Theorem C61_seek_recovers : forall p info level A B ct c file' ms,
  let ch := si_channels info in
  let t := target_block info ms in
  0 <= level -> info_fits info -> recording_ok ch (A ++ B) ->
  encode_all p (new_codec info level) A = Ok ct -> encode_all p ct B = Ok c -> zlen (ad_save c) < 2 ^ 56 ->
  altered (data_start c) (data_start c + Z.to_nat (bits_used ct / 8)) (ad_save c) file' ->
  ms <> 0 -> total_blocks ch A < t <= total_blocks ch (A ++ B) ->
  exists c0 c1, ad_load p (ad_save c) = Ok (Some c0) /\ ad_load p file' = Ok (Some c1) /\
    forall ops0 ops1 e0 e1, play_all p ops0 c0 = Ok e0 -> play_all p ops1 c1 = Ok e1 ->
      exists f0 f1, ad_seek p e0 (SStart ms) = Ok f0 /\ ad_seek p e1 (SStart ms) = Ok f1 /\
        forall bufs, exists d0 d1 rs, decode_all p f0 bufs = Ok (d0, rs) /\ decode_all p f1 bufs = Ok (d1, rs).
Proof.
  intros p info level A B ct c file' ms ch t Hlv HI HR EA EB HZ HA Hms Ht. pose proof HR as (Hch & _). fold ch in Hch.
  destruct (encoded_parts p info level A B ct c Hlv HI HR EA EB) as (rowsA & rowsB & Hrows & HrA & E & Hu & HM & HO & HH).
  set (rows := rowsA ++ rowsB) in *. fold ch in Hrows, HrA, HO. rewrite encode_all_session in E.
  assert (Hu0 : 0 <= bits_used ct) by (rewrite Hu; apply zlen_nonneg).
  assert (HE : (data_start c + Z.to_nat (bits_used ct / 8) <= data_end c)%nat).
  { destruct HM as (_ & HM & _). subst rows. rewrite concat_app, bits_of_app, zlen_app, <- Hu in HM. pose proof (zlen_nonneg (bits_of (concat rowsB))).
    assert (bits_used ct / 8 <= 16 * zlen (bs_binary (as_stream (ad_stream c)))) by (apply Z.div_le_upper_bound; lia).
    assert (0 <= bits_used ct / 8) by (apply Z.div_pos; lia). destruct (save_parts c) as (pre & HP & LP).
    specialize (HP _ eq_refl). rewrite with_same in HP. unfold data_end. rewrite HP, !app_length, LP.
    assert (F : forall l, length (flat_map put_u128 l) = (16 * length l)%nat).
    { induction l; cbn [flat_map length]; auto. rewrite app_length, IHl. unfold put_u128. rewrite length_le_bytes. lia. }
    rewrite F. unfold put_u128. rewrite !length_le_bytes. unfold zlen in *. lia. }
  destruct (load_damaged p p info level _ c _ _ file' HI E HZ (Nat.le_refl _) HE HA) as (chunks & L0 & L1 & Hz & HRc & HBits).
  exists (loaded c info), (loaded (with_chunks c chunks) info). split; [exact L0|]. split; [exact L1|].
  intros ops0 ops1 e0 e1 P0 P1.
  destruct HI as [I1 I2].
  pose proof (session_typed p _ _ _ (new_typed info level I1 I2) E) as [(_ & (S1 & S2 & S3) & T) TL _].
  set (bin := bs_binary (as_stream (ad_stream c))) in *.
  assert (F : Forall2 (fun row pcm => row_n row = zlen pcm / ch) rows (A ++ B)) by (rewrite Hrows; now apply frames_sizes).
  assert (FA : Forall2 (fun row pcm => row_n row = zlen pcm / ch) rowsA A) by (rewrite HrA; apply frames_sizes; eapply recording_ok_app; eauto).
  pose proof (sum_total ch rows _ F) as ST. pose proof (sum_total ch rowsA _ FA) as SA.
  set (i := fst (walk t 0 rows)). pose proof (total_blocks_nonneg ch A Hch) as TA0.
  destruct (walk_law t 0 rows ltac:(lia)) as (W1 & W2 & W3 & W4 & _). fold i in W1, W2, W4.
  assert (Hne : rows <> []) by (intros X; rewrite X in ST; cbn in ST; lia).
  destruct (W4 ltac:(lia) Hne) as [W5 W6]. clear W4. set (row := nth i rows []) in *.
  assert (Hi : (length rowsA <= i)%nat).
  { destruct (Nat.le_gt_cases (length rowsA) i) as [|Hlt]; auto. exfalso.
    assert (sum_n (firstn i rows) + row_n row <= sum_n rowsA); [|lia].
    subst row rows. rewrite firstn_app, app_nth1 by lia. replace (i - length rowsA)%nat with 0%nat by lia. cbn [firstn]. rewrite app_nil_r.
    rewrite <- (firstn_skipn i rowsA) at 3. rewrite sum_n_app. rewrite (skipn_nth_cons rowsA i [] Hlt).
    pose proof (sum_n_nonneg (skipn (S i) rowsA)). unfold sum_n in *. cbn [map fold_right]. lia. }
  assert (Er : rows = firstn i rows ++ row :: skipn (S i) rows).
  { rewrite <- (firstn_skipn i rows) at 1. f_equal. apply skipn_nth_cons. lia. }
  assert (Ec : concat rows = concat (firstn i rows) ++ (row ++ concat (skipn (S i) rows)) ++ []).
  { rewrite Er at 1. rewrite concat_app, app_nil_r. reflexivity. }
  assert (M0 : mem_at bin (concat rows) (concat (firstn i rows)) (row ++ concat (skipn (S i) rows))).
  { rewrite Ec. apply mem_ok_at. rewrite <- Ec. exact HM. }
  assert (M1 : mem_at chunks (concat rows) (concat (firstn i rows)) (row ++ concat (skipn (S i) rows))).
  { eapply mem_at_same; [exact M0|exact Hz|]. intros j Hj. apply HBits.
    - pose proof (zlen_nonneg (bits_of (concat (firstn i rows)))). lia.
    - right. replace (data_start c + Z.to_nat (bits_used ct / 8) - data_start c)%nat with (Z.to_nat (bits_used ct / 8)) by lia.
      rewrite Z2Nat.id by (apply Z.div_pos; lia). apply Z.div_le_mono; [lia|]. rewrite Hu.
      assert (zlen (bits_of (concat rowsA)) <= zlen (bits_of (concat (firstn i rows)))); [|lia].
      subst rows. rewrite firstn_app, (firstn_all2 rowsA) by lia. rewrite concat_app, bits_of_app, zlen_app.
      pose proof (zlen_nonneg (bits_of (concat (firstn (i - length rowsA) rowsB)))). lia. }
  assert (HSS : forall cx e ops m, m = bs_binary (as_stream (ad_stream cx)) -> ad_headers cx = ad_headers c -> ad_level cx = ad_level c ->
    Forall (in_range_u 128) m -> mem_at m (concat rows) (concat (firstn i rows)) (row ++ concat (skipn (S i) rows)) ->
    stream_fits (as_stream (ad_stream cx)) ->
    play_all p ops (loaded cx info) = Ok e ->
    exists f, ad_seek p e (SStart ms) = Ok f /\ ad_scale f = f32_of_Z (2 ^ ad_level c) /\ as_info (ad_stream f) = Some info /\
      let k := Z.to_nat (t - block_of_row rows i) in
      zlen (map (popn k) (step_row (map restored row) row)) = ch /\
      dec_inv p (codec_state_of f) m (firstn i rows ++ [row]) (skipn (S i) rows)
        (map (popn k) (step_row (map restored row) row)) (row_n row - Z.of_nat k)).
  { clear -TA0 I1 I2 HH HO Hch Hms Ht ST Hne F HR TL T Hrows.
    intros cx e ops m Hm Hhx Hlx HRm HMm Hsf HP.
    pose proof (play_same p ops _ _ HP) as (ST' & Si & _ & Sc & _). pose proof (play_kept p ops _ _ HP) as HK.
    assert (TY : typed (loaded cx info)).
    { constructor.
      - split; [|split].
        + cbn [loaded ad_channels]. apply Forall_forall. intros x Hx. apply repeat_spec in Hx. subst x. split; [apply new_stack_fits|apply hist_any_new] || apply new_stack_fits.
        + destruct Hsf as (Q1 & Q2 & Q3). split; [exact Q1|]. split; [apply zero_fits; lia|exact Q3].
        + cbn [loaded ad_headers]. rewrite Hhx. destruct T. constructor; auto. apply zero_fits. lia.
      - cbn [loaded ad_level]. now rewrite Hlx.
      - intros info' X. injection X as <-. auto. }
    assert (GD : AnyState.good info (loaded cx info)).
    { split; [reflexivity|]. split; [cbn [loaded ad_channels]; rewrite zlen_repeat; fold ch; lia|].
      apply Forall_forall. intros x Hx. apply repeat_spec in Hx. subst x. intros X. now contradiction X. }
    rewrite play_session in HP.
    pose proof (session_typed p _ _ _ TY HP) as [(T1 & (T2 & _) & _) _ _].
    pose proof (session_good p info _ _ _ GD HP) as (G1 & G2 & _).
    destruct (seek_at p e info m rows ms) as (f & EF & (_ & Sf & _) & _ & _ & If & ZF & DF & _); auto.
    - eapply Forall_impl; [|exact T1]. intros fc X. exact (proj2 X) || (destruct X as [_ X]; exact X).
    - subst m. change (bs_binary (as_stream (ad_stream cx))) with (bs_binary (as_stream (ad_stream (loaded cx info)))). now apply kept_ext.
    - rewrite ST'. cbn [loaded ad_headers]. rewrite Hhx. exact HH.
    - eapply (proj1 (mem_at_split _ _ _ _ _ HMm)).
    - rewrite Hrows. apply frames_marked.
    - fold ch. rewrite ST. pose proof HR as (_ & _ & _ & _ & H58).
      pose proof (total_samples_blocks ch (A ++ B)) as TB. pose proof (total_samples_bound ch (A ++ B) Hch) as TS.
      apply Z.le_lt_trans with (2 ^ 58); [lia|]. apply Z.pow_lt_mono_r; lia.
    - fold t. lia.
    - fold t. lia.
    - exists f. split; [exact EF|]. split; [rewrite Sf, Sc; cbn [loaded ad_scale]; now rewrite Hlx|]. split; [exact If|].
      split; [exact ZF|exact DF]. }
  destruct (HSS c e0 ops0 bin) as (f0 & EF0 & Sf0 & If0 & ZF0 & DF0); auto; [split; auto|].
  destruct (HSS (with_chunks c chunks) e1 ops1 chunks) as (f1 & EF1 & Sf1 & If1 & ZF1 & DF1); auto; [split; auto|].
  exists f0, f1. split; [exact EF0|]. split; [exact EF1|]. intros bufs. clear HSS.
  set (k := Z.to_nat (t - block_of_row rows i)) in *.
  assert (HRm : room ch bufs <= room ch bufs * ch) by (rewrite (room_blocks ch bufs Hch); nia).
  destruct (decode_all_pair p False 0 0 info ltac:(tauto) bufs (room ch bufs) f0 f1) as (d0 & d1 & rs0 & rs1 & E0 & E1 & _ & _ & EQ & _).
  { constructor; auto; try tauto.
    - pose proof (di_at _ _ _ _ _ _ _ DF0) as (C0 & _). unfold zlen in *. unfold codec_state_of in C0. rewrite (Forall2_len _ _ _ C0). fold ch. exact ZF0.
    - pose proof (di_at _ _ _ _ _ _ _ DF1) as (C0 & _). unfold zlen in *. unfold codec_state_of in C0. rewrite (Forall2_len _ _ _ C0). fold ch. exact ZF1.
    - congruence.
    - intros _. exists bin, chunks, (firstn i rows ++ [row]), (skipn (S i) rows), [], (map (popn k) (step_row (map restored row) row)), (row_n row - Z.of_nat k).
      assert (Ecr : concat ((firstn i rows ++ [row]) ++ skipn (S i) rows ++ []) = concat rows).
      { rewrite app_nil_r, <- app_assoc. cbn [app]. now rewrite <- Er. }
      assert (Ecd : concat (firstn i rows ++ [row]) = concat (firstn i rows) ++ row) by (rewrite concat_app; cbn [concat]; now rewrite app_nil_r).
      split; [|left; reflexivity]. constructor; rewrite ?app_nil_r; auto.
      + rewrite app_nil_r in Ecr. rewrite Ecr, Ecd. apply (mem_at_split _ _ _ _ _ M0).
      + rewrite app_nil_r in Ecr. rewrite Ecr, Ecd. apply (mem_at_split _ _ _ _ _ M1). }
  { right. fold ch. exact HRm. }
  exists d0, d1, rs0. split; [exact E0|]. rewrite E1. rewrite EQ; [reflexivity|exact HRm].
Qed.
Print Assumptions C61_seek_recovers.

(** ** Concrete damaged files *)
Lemma altered_one a b i x file : (a <= i < b)%nat -> byte x -> Forall byte file -> altered a b file (replace_nth i file x).
Proof.
  intros Hi Hx HF. split; [apply length_replace_nth|]. split; [|intros j Hj; apply nth_replace_other; lia].
  clear Hi. revert i. induction HF; intros [|i]; cbn [replace_nth]; auto.
Qed.
Definition byteb (b : Z) : bool := (0 <=? b) && (b <? 256).
Lemma byteb_all l : forallb byteb l = true -> Forall byte l.
Proof. intros H. apply Forall_forall. rewrite forallb_forall in H. intros x Hx. specialize (H x Hx). unfold byteb in H. apply andb_prop in H. unfold byte. lia. Qed.

(** One block per millisecond; the demonstration recording is fed in two parts, of five and
    of three blocks. *)
Definition slow : stream_info := mkInfo 1000 2.
Definition part1 := firstn 1 demo.
Definition part2 := skipn 1 demo.
Definition both (p : profile) (level : Z) (b : adhoc -> adhoc -> bool) : bool :=
  match encode_all p (new_codec slow level) part1 with
  | Ok ct => match encode_all p ct part2 with Ok c => b ct c | _ => false end
  | _ => false
  end.
Lemma both_inv p level b : both p level b = true ->
  exists ct c, encode_all p (new_codec slow level) part1 = Ok ct /\ encode_all p ct part2 = Ok c /\ b ct c = true.
Proof.
  unfold both. destruct (encode_all p (new_codec slow level) part1) as [ct| |]; try discriminate.
  destruct (encode_all p ct part2) as [c| |] eqn:E; try discriminate. exists ct, c. auto.
Qed.
Lemma slow_fits : info_fits slow. Proof. split; vm_compute; auto; split; congruence. Qed.

(** [i]-th byte of the data replaced by [x]. *)
Definition hit (c : adhoc) (i : nat) (x : Z) : list Z := replace_nth (data_start c + i) (ad_save c) x.
Definition between (c : adhoc) (a b i : nat) : bool :=
  forallb byteb (ad_save c) && (zlen (ad_save c) <? 2 ^ 56) && (a <=? data_start c + i)%nat && (data_start c + i <? b)%nat.
Lemma between_altered c a b i x : between c a b i = true -> byte x ->
  altered a b (ad_save c) (hit c i x) /\ zlen (ad_save c) < 2 ^ 56.
Proof.
  unfold between, hit. rewrite !andb_true_iff, Nat.leb_le, Nat.ltb_lt, Z.ltb_lt. intros (((H1 & H2) & H3) & H4) Hx.
  split; auto. apply altered_one; auto. now apply byteb_all.
Qed.
Definition plays (p : profile) (file : list Z) (bufs : list (list f32)) : outcome (list (list f32 * option Z)) :=
  o <- ad_load p file ;; match o with Some c => '(_, rs) <- decode_all p c bufs ;; Ok rs | None => Panic ExpectFailed end.
Definition heard (p : profile) (file : list Z) (bufs : list (list f32)) : list Z :=
  match plays p file bufs with Ok rs => map quantise (concat (map reported rs)) | _ => [] end.

Fixpoint eqb_all (a b : list Z) : bool :=
  match a, b with [], [] => true | x :: a, y :: b => (x =? y) && eqb_all a b | _, _ => false end.
Lemma eqb_all_refl l : eqb_all l l = true.
Proof. induction l; cbn; auto. now rewrite Z.eqb_refl. Qed.
Lemma eqb_all_ne a b : negb (eqb_all a b) = true -> a <> b.
Proof. intros H ->. now rewrite eqb_all_refl in H. Qed.
Lemma parts_ok : recording_ok (si_channels slow) (part1 ++ part2).
Proof. unfold part1, part2. rewrite firstn_skipn. apply demo_ok. Qed.
Lemma parts_session p level ct c : encode_all p (new_codec slow level) part1 = Ok ct -> encode_all p ct part2 = Ok c ->
  session p (map Feed (part1 ++ part2)) (new_codec slow level) = Ok c.
Proof. intros E1 E2. rewrite <- encode_all_session. unfold encode_all in *. rewrite foldM_app, E1. exact E2. Qed.
Lemma byte_255 : byte 255. Proof. split; [discriminate|reflexivity]. Qed.

(** The file with its seventh data byte replaced meets the hypotheses of
    [C59_damaged_data_plays], and its playback is not that of the undamaged file. *)
Example C59_nonvacuous : exists acts c,
  info_fits slow /\ 0 < si_channels slow /\ session Debug acts (new_codec slow 0) = Ok c /\ zlen (ad_save c) < 2 ^ 56 /\
  altered (data_start c) (data_end c) (ad_save c) (hit c 6 255) /\
  heard Release (hit c 6 255) [repeat f0 40] <> heard Release (ad_save c) [repeat f0 40].
Proof.
  destruct (both_inv Debug 0 (fun ct c => between c (data_start c) (data_end c) 6 &&
    negb (eqb_all (heard Release (hit c 6 255) [repeat f0 40]) (heard Release (ad_save c) [repeat f0 40]))))
    as (ct & c & E1 & E2 & E3); [vm_compute; reflexivity|].
  apply andb_prop in E3. destruct E3 as [E3 E4]. destruct (between_altered _ _ _ _ 255 E3 byte_255) as [A1 A2].
  exists (map Feed (part1 ++ part2)), c. split; [apply slow_fits|]. split; [reflexivity|].
  split; [eapply parts_session; eauto|]. split; auto. split; auto. now apply eqb_all_ne.
Qed.
(** The same file, byte 6 of the data replaced, meets those of [C59_any_file_plays]. *)
Example C59_file_nonvacuous : exists file c info, Forall byte file /\ zlen file < 2 ^ 56 /\
  ad_load Release file = Ok (Some c) /\ ad_info c = Ok info /\ 0 < si_channels info /\ 0 < fhs_len (ad_headers c) /\
  (let h := ad_headers c in
   fhs_len h <= zlen (fhs_sizes h) /\ fhs_len h <= zlen (fhs_cursors h) /\ fhs_len h <= zlen (fhs_hists h)).
Proof.
  destruct (both_inv Debug 0 (fun ct c => between c (data_start c) (data_end c) 6 &&
    match ad_load Release (hit c 6 255) with
    | Ok (Some d) => match ad_info d with Ok info => (0 <? si_channels info) && (0 <? fhs_len (ad_headers d)) &&
        (fhs_len (ad_headers d) <=? zlen (fhs_sizes (ad_headers d))) && (fhs_len (ad_headers d) <=? zlen (fhs_cursors (ad_headers d))) &&
        (fhs_len (ad_headers d) <=? zlen (fhs_hists (ad_headers d))) | _ => false end
    | _ => false end)) as (ct & c & E1 & E2 & E3); [vm_compute; reflexivity|].
  apply andb_prop in E3. destruct E3 as [E3 E4]. destruct (between_altered _ _ _ _ 255 E3 byte_255) as [A1 A2].
  destruct (ad_load Release (hit c 6 255)) as [[d|]| |] eqn:L; try discriminate E4.
  destruct (ad_info d) as [info| |] eqn:I; try discriminate E4. rewrite !andb_true_iff, !Z.ltb_lt, !Z.leb_le in E4.
  exists (hit c 6 255), d, info. split; [apply A1|]. split; [unfold hit; now rewrite zlen_replace_nth|]. cbv zeta. tauto.
Qed.

(** In a debug build the same damage can panic: the code for a difference may stand for more
    than 16 bits. *)
Theorem C59_debug_refuted : ~ (forall info level acts c file',
  info_fits info -> 0 < si_channels info ->
  session Debug acts (new_codec info level) = Ok c -> zlen (ad_save c) < 2 ^ 56 ->
  altered (data_start c) (data_end c) (ad_save c) file' ->
  forall c1 bufs, ad_load Debug file' = Ok (Some c1) -> exists d1 rs1, decode_all Debug c1 bufs = Ok (d1, rs1)).
Proof.
  intros H. destruct (both_inv Debug 0 (fun ct c => between c (data_start c) (data_end c) 6 &&
    match ad_load Debug (hit c 6 255) with
    | Ok (Some c1) => match decode_all Debug c1 [repeat f0 40] with Panic ArithmeticOverflow => true | _ => false end
    | _ => false
    end)) as (ct & c & E1 & E2 & E3); [vm_compute; reflexivity|].
  apply andb_prop in E3. destruct E3 as [E3 E4]. destruct (between_altered _ _ _ _ 255 E3 byte_255) as [A1 A2].
  destruct (ad_load Debug (hit c 6 255)) as [[c1|]| |] eqn:L; try discriminate E4.
  destruct (H slow 0 (map Feed (part1 ++ part2)) c _ slow_fits ltac:(reflexivity) ltac:(eapply parts_session; eauto) A2 A1 c1 [repeat f0 40] L)
    as (d1 & rs1 & X). rewrite X in E4; discriminate E4.
Qed.
Print Assumptions C59_debug_refuted.

(** A file whose header count exceeds its list of frame sizes still loads, and then panics on
    the first decode call: the lists are not compared when loading. *)
Definition short_table : adhoc :=
  mkAdhoc (mkFHS (mkNL [0] 1) bv_new [] [] [] 0) [] (mkAS (Some slow) bs_new) 0 f1 f1 314.
Theorem C59_short_table_refuted : ~ (forall file c info,
  Forall byte file -> zlen file < 2 ^ 56 ->
  ad_load Release file = Ok (Some c) -> ad_info c = Ok info -> 0 < si_channels info ->
  forall bufs, exists c' rs, decode_all Release c bufs = Ok (c', rs)).
Proof.
  intros H.
  assert (E : match ad_load Release (ad_save short_table) with
    | Ok (Some c) => ad_info c = Ok slow /\ match decode_all Release c [repeat f0 2] with Panic IndexOutOfBounds => True | _ => False end
    | _ => False end) by (vm_compute; split; reflexivity || exact I).
  destruct (ad_load Release (ad_save short_table)) as [[c|]| |] eqn:L; try contradiction E. destruct E as [E1 E2].
  destruct (H (ad_save short_table) c slow) with (bufs := [repeat f0 2]) as (c' & rs & X); auto; try reflexivity.
  - apply byteb_all. vm_compute. reflexivity.
  - rewrite X in E2; contradiction E2.
Qed.
Print Assumptions C59_short_table_refuted.

(** Damage to the data of the second part meets the hypotheses of [C60_prefix_intact] and
    changes what is heard of that part. *)
Example C60_nonvacuous : exists ct c,
  0 <= 0 /\ info_fits slow /\ recording_ok (si_channels slow) (part1 ++ part2) /\
  encode_all Debug (new_codec slow 0) part1 = Ok ct /\ encode_all Debug ct part2 = Ok c /\ zlen (ad_save c) < 2 ^ 56 /\
  altered (data_start c + Z.to_nat ((bits_used ct + 7) / 8)) (data_end c) (ad_save c) (hit c 21 255) /\
  audible (si_channels slow) 0 part1 = 5 /\
  heard Release (hit c 21 255) [repeat f0 40] <> heard Release (ad_save c) [repeat f0 40].
Proof.
  destruct (both_inv Debug 0 (fun ct c => between c (data_start c + Z.to_nat ((bits_used ct + 7) / 8)) (data_end c) 21 &&
    negb (eqb_all (heard Release (hit c 21 255) [repeat f0 40]) (heard Release (ad_save c) [repeat f0 40]))))
    as (ct & c & E1 & E2 & E3); [vm_compute; reflexivity|].
  apply andb_prop in E3. destruct E3 as [E3 E4]. destruct (between_altered _ _ _ _ 255 E3 byte_255) as [A1 A2].
  exists ct, c. split; [lia|]. split; [apply slow_fits|]. split; [apply parts_ok|]. split; auto. split; auto. split; auto.
  split; auto. split; [vm_compute; reflexivity|]. now apply eqb_all_ne.
Qed.

(** Damage does reach forward: a byte damaged in the data of the first calls changes what is
    heard of the calls after them. *)
Theorem C60_forward_refuted : ~ (forall p info level A B ct c file',
  let ch := si_channels info in
  0 <= level -> info_fits info -> recording_ok ch (A ++ B) ->
  encode_all p (new_codec info level) A = Ok ct -> encode_all p ct B = Ok c -> zlen (ad_save c) < 2 ^ 56 ->
  altered (data_start c) (data_start c + Z.to_nat (bits_used ct / 8)) (ad_save c) file' ->
  forall bufs rs0 rs1, plays p (ad_save c) bufs = Ok rs0 -> plays p file' bufs = Ok rs1 ->
    skipn (Z.to_nat (ch * audible ch 0 A)) (concat (map reported rs1)) = skipn (Z.to_nat (ch * audible ch 0 A)) (concat (map reported rs0))).
Proof.
  intros H. destruct (both_inv Release 0 (fun ct c => between c (data_start c) (data_start c + Z.to_nat (bits_used ct / 8)) 0 &&
    match plays Release (ad_save c) [repeat f0 40], plays Release (hit c 0 255) [repeat f0 40] with
    | Ok rs0, Ok rs1 => negb (eqb_all (map quantise (skipn 10 (concat (map reported rs1)))) (map quantise (skipn 10 (concat (map reported rs0)))))
    | _, _ => false end)) as (ct & c & E1 & E2 & E3); [vm_compute; reflexivity|].
  apply andb_prop in E3. destruct E3 as [E3 E4]. destruct (between_altered _ _ _ _ 255 E3 byte_255) as [A1 A2].
  destruct (plays Release (ad_save c) [repeat f0 40]) as [rs0| |] eqn:P0; try discriminate E4.
  destruct (plays Release (hit c 0 255) [repeat f0 40]) as [rs1| |] eqn:P1; try discriminate E4.
  pose proof (H Release slow 0 part1 part2 ct c _ ltac:(lia) slow_fits parts_ok E1 E2 A2 A1 _ rs0 rs1 P0 P1) as X.
  replace (Z.to_nat (si_channels slow * audible (si_channels slow) 0 part1)) with 10%nat in X by (vm_compute; reflexivity).
  rewrite X in E4. rewrite eqb_all_refl in E4; discriminate E4.
Qed.
Print Assumptions C60_forward_refuted.

(** The seventh data byte damaged and a seek to the sixth millisecond meet the hypotheses of
    [C61_seek_recovers]. *)
Example C61_nonvacuous : exists ct c,
  0 <= 0 /\ info_fits slow /\ recording_ok (si_channels slow) (part1 ++ part2) /\
  encode_all Release (new_codec slow 0) part1 = Ok ct /\ encode_all Release ct part2 = Ok c /\ zlen (ad_save c) < 2 ^ 56 /\
  altered (data_start c) (data_start c + Z.to_nat (bits_used ct / 8)) (ad_save c) (hit c 6 255) /\
  6 <> 0 /\ total_blocks 2 part1 < target_block slow 6 <= total_blocks 2 (part1 ++ part2) /\
  heard Release (hit c 6 255) [repeat f0 40] <> heard Release (ad_save c) [repeat f0 40].
Proof.
  destruct (both_inv Release 0 (fun ct c => between c (data_start c) (data_start c + Z.to_nat (bits_used ct / 8)) 6 &&
    negb (eqb_all (heard Release (hit c 6 255) [repeat f0 40]) (heard Release (ad_save c) [repeat f0 40]))))
    as (ct & c & E1 & E2 & E3); [vm_compute; reflexivity|].
  apply andb_prop in E3. destruct E3 as [E3 E4]. destruct (between_altered _ _ _ _ 255 E3 byte_255) as [A1 A2].
  exists ct, c. split; [lia|]. split; [apply slow_fits|]. split; [apply parts_ok|]. split; auto. split; auto. split; auto.
  split; auto. split; [discriminate|]. split; [vm_compute; split; congruence|]. now apply eqb_all_ne.
Qed.

(** A seek to the very first block behind the damaged calls does not help: it starts decoding
    at the call before that block, from the damaged data. *)
Theorem C61_boundary_refuted : ~ (forall p info level A B ct c file' ms,
  let ch := si_channels info in
  let t := target_block info ms in
  0 <= level -> info_fits info -> recording_ok ch (A ++ B) ->
  encode_all p (new_codec info level) A = Ok ct -> encode_all p ct B = Ok c -> zlen (ad_save c) < 2 ^ 56 ->
  altered (data_start c) (data_start c + Z.to_nat (bits_used ct / 8)) (ad_save c) file' ->
  ms <> 0 -> total_blocks ch A <= t <= total_blocks ch (A ++ B) ->
  forall c0 c1 f0 f1 bufs d0 d1 rs0 rs1, ad_load p (ad_save c) = Ok (Some c0) -> ad_load p file' = Ok (Some c1) ->
    ad_seek p c0 (SStart ms) = Ok f0 -> ad_seek p c1 (SStart ms) = Ok f1 ->
    decode_all p f0 bufs = Ok (d0, rs0) -> decode_all p f1 bufs = Ok (d1, rs1) -> rs1 = rs0).
Proof.
  intros H. destruct (both_inv Release 0 (fun ct c => between c (data_start c) (data_start c + Z.to_nat (bits_used ct / 8)) 6 &&
    match ad_load Release (ad_save c), ad_load Release (hit c 6 255) with
    | Ok (Some c0), Ok (Some c1) =>
        match ad_seek Release c0 (SStart 5), ad_seek Release c1 (SStart 5) with
        | Ok f0', Ok f1' => match decode_all Release f0' [repeat f0 2], decode_all Release f1' [repeat f0 2] with
            | Ok (_, rs0), Ok (_, rs1) => negb (eqb_all (map quantise (concat (map reported rs1))) (map quantise (concat (map reported rs0))))
            | _, _ => false end
        | _, _ => false end
    | _, _ => false end)) as (ct & c & E1 & E2 & E3); [vm_compute; reflexivity|].
  apply andb_prop in E3. destruct E3 as [E3 E4]. destruct (between_altered _ _ _ _ 255 E3 byte_255) as [A1 A2].
  destruct (ad_load Release (ad_save c)) as [[c0|]| |] eqn:L0; try discriminate E4.
  destruct (ad_load Release (hit c 6 255)) as [[c1|]| |] eqn:L1; try discriminate E4.
  destruct (ad_seek Release c0 (SStart 5)) as [g0| |] eqn:S0; try discriminate E4.
  destruct (ad_seek Release c1 (SStart 5)) as [g1| |] eqn:S1; try discriminate E4.
  destruct (decode_all Release g0 [repeat f0 2]) as [[d0 rs0]| |] eqn:D0; try discriminate E4.
  destruct (decode_all Release g1 [repeat f0 2]) as [[d1 rs1]| |] eqn:D1; try discriminate E4.
  assert (X : rs1 = rs0); [|rewrite X in E4; rewrite eqb_all_refl in E4; discriminate E4].
  eapply (H Release slow 0 part1 part2 ct c (hit c 6 255) 5); eauto; try lia; try discriminate E4.
  - apply slow_fits.
  - apply parts_ok.
  - clear. vm_compute. split; congruence.
Qed.
Print Assumptions C61_boundary_refuted.
