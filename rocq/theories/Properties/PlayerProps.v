(** * Property C88: a codec that holds a recording is a player

    [conversation] (what the codec answers to any sequence of requests) and [replies] (what a
    player answers) are in Spec/Player.v; [encode_all], [recording_ok], [decoded_signal] and the
    other words in Spec/Recording.v. *)
From Coq Require Import ZArith List Bool Lia.
From Flocq Require Import IEEE754.BinarySingleNaN.
From Verif Require Import Model.Base Model.F32 Model.Sample Model.BitStream Model.Frame Model.Adhoc Spec.Codec Spec.Recording Spec.Frames Spec.Files Spec.Seeking Spec.Player Model.Bincode
  Proofs.BaseFacts Proofs.FloatFacts Proofs.BitStreamFacts Proofs.Headers Proofs.BitLog Proofs.FrameFacts Proofs.EncodeFacts Proofs.DecodeFacts Proofs.RoundTrip Proofs.SignalFacts Proofs.FrameLaws
  Proofs.AnyState Proofs.TypeFacts Proofs.Memory Proofs.SeekFacts Proofs.SeekRecording Proofs.SeekTarget
  Properties.Demo Properties.FrameProps Properties.SeekProps Properties.FileProps.
Import ListNotations.
Open Scope Z_scope.

(** ** A codec that was just recorded has nothing to play *)
Lemma idle_decode p info level pcms c1 :
  0 <= level -> recording_ok (si_channels info) pcms -> encode_all p (new_codec info level) pcms = Ok c1 ->
  forall c buf, ad_headers c = ad_headers c1 -> ad_channels c = ad_channels c1 -> ad_stream c = ad_stream c1 ->
  ad_decode p c buf = Ok (c, map (fun x => fmul x (ad_scale c)) buf, None).
Proof.
  intros Hl HR E c buf C1 C2 C3. pose proof (encoded_safe p info level pcms c1 HR E) as HS.
  destruct (encode_recording p info level pcms HR HS) as (c1' & E' & Se & R & M & _).
  rewrite E in E'. injection E' as <-. pose proof HR as (Hch & _).
  set (fs := concat _) in R. pose proof R as [Hi _ HC Hn _ [HH HX] _].
  assert (Hfs : zlen fs + 1 < 2 ^ 32) by apply M.
  set (d := (ad_channels c1, as_stream (ad_stream c1), ad_headers c1)).
  assert (HB : buffers_empty (ad_channels c1) = true).
  { clear -HC. unfold buffers_empty. induction HC as [|fc st chs sts [H1 _] H IH]; cbn [forallb]; auto. now rewrite H1. }
  assert (HD : foldM (decode_channel p) (range (si_channels info)) d = Ok d).
  { apply (decode_end_spec p _ _ _ fs); auto.
    - split; auto.
    - apply Forall2_len in HC. unfold zlen in *. lia. }
  assert (HA : forall fuel, buffer_audio p (si_channels info) fuel d = Ok (d, fuel)).
  { induction fuel as [|fuel IH]; [reflexivity|]. cbn [buffer_audio]. unfold d at 1. rewrite HB. rewrite HD. cbn [bind].
    rewrite IH. reflexivity. }
  unfold ad_decode, ad_info. rewrite C3, Hi. cbn [expect bind]. rewrite udiv_ok by lia. cbn [bind].
  rewrite C1, C2. fold d. cbn [decode_loop]. rewrite HA. cbn [bind]. rewrite Nat.leb_refl.
  destruct (0 <? zlen buf / si_channels info * si_channels info).
  all: cbn [bind]; unfold d; change (zlen (@nil f32)) with 0; cbn [app length skipn Z.ltb Z.compare].
  all: rewrite <- Hi, <- C1, <- C2, <- C3.
  all: now destruct c as [? ? [? ?] ? ? ? ?].
Qed.

Lemma level_scale c l : 0 <= l -> ad_scale (ad_with_level c l) = gain l.
Proof. intros H. exact (new_codec_scale (mkInfo 0 0) l H). Qed.

Lemma table_count p c c' : same_table (ad_headers c) (ad_headers c') -> as_info (ad_stream c') = as_info (ad_stream c) ->
  ad_sample_count p c' = ad_sample_count p c.
Proof.
  intros A1 A2. unfold ad_sample_count, ad_info. rewrite A2, (same_table_len _ _ A1).
  destruct (expect (as_info (ad_stream c))); cbn [bind]; auto.
  f_equal. apply foldM_ext. intros acc i. now rewrite (same_table_get _ _ _ A1).
Qed.

Lemma level_form c l : 0 <= ad_level (ad_with_level c l) <= 10 /\ ad_scale (ad_with_level c l) = f32_of_Z (2 ^ ad_level (ad_with_level c l)).
Proof.
  cbn [ad_with_level ad_scale ad_level]. pose proof (zclamp_range l 0 10 ltac:(lia)) as B. split; [exact B|].
  rewrite Z.shiftl_mul_pow2 by lia. now rewrite Z.mul_1_l.
Qed.

Section Played.
Variables (p : profile) (info : stream_info) (level : Z) (pcms : list (list f32)) (c1 : adhoc).
Let ch := si_channels info.
Let rows := frames_of (inv_gain level) ch pcms.
Let m := bs_binary (as_stream (ad_stream c1)).
Hypothesis Hl : 0 <= level.
Hypothesis HI : info_fits info.
Hypothesis HR : recording_ok ch pcms.
Hypothesis HG : no_long_gap ch pcms.
Hypothesis E : encode_all p (new_codec info level) pcms = Ok c1.

(** A codec with the recording in the state of a player. *)
Record seated (c : adhoc) : Prop := {
  st_typed : typed c;
  st_good : good info c;
  st_table : same_table (ad_headers c1) (ad_headers c);
  st_kept : c_kept c1 c;
  st_scale : 0 <= ad_level c <= 10 /\ ad_scale c = f32_of_Z (2 ^ ad_level c) }.
Record seat (c : adhoc) (pl : player) : Prop := {
  st_held : seated c;
  st_vol : ad_scale c = volume pl;
  st_left :
    (ad_headers c = ad_headers c1 /\ ad_channels c = ad_channels c1 /\ ad_stream c = ad_stream c1 /\ left pl = []) \/
    exists rem n, decoding p c info m rows rem n /\ Forall (fun l => zlen l = Z.of_nat n) rem /\
      length rem = Z.to_nat ch /\ left pl = interleave f0 n rem }.

Lemma start : seat c1 (mkPlayer [] (gain level)).
Proof.
  pose proof (encoded_safe p info level pcms c1 HR E) as HS.
  destruct (encode_recording p info level pcms HR HS) as (c1' & E' & S & _). rewrite E in E'. injection E' as <-.
  pose proof E as E2. rewrite encode_all_session in E2. destruct HI as [I1 I2]. constructor; [constructor| |].
  - eapply session_typed; [apply new_typed; eauto|exact E2].
  - eapply session_good; [apply new_good; apply I2|exact E2].
  - apply same_table_refl.
  - apply kept_refl.
  - destruct S as (-> & -> & _). apply level_form.
  - destruct S as (_ & -> & _). now apply new_codec_scale.
  - left. auto.
Qed.

Lemma rec : recorded p info m rows /\ fhs_rep (ad_headers c1) (headers_of 0 (concat rows)).
Proof.
  pose proof (encoded_safe p info level pcms c1 HR E) as HS.
  destruct (encode_recording p info level pcms HR HS) as (c1' & E' & S & R & HM & HO).
  rewrite E in E'. injection E' as <-.
  pose proof (recording_recorded p info level pcms c1 HR HM HO) as HRec.
  rewrite (new_codec_inv info level Hl) in *. split; [exact HRec|]. destruct R as [_ _ _ _ _ [HH _] _]. exact HH.
Qed.

(** What decoding and seeking rely on. *)
Lemma seat_facts c : seated c ->
  as_info (ad_stream c) = Some info /\ zlen (ad_channels c) = ch /\
  Forall (fun fc => hist_any (fc_history fc)) (ad_channels c) /\
  chunks_ok (bs_binary (as_stream (ad_stream c))) /\ ext m (bs_binary (as_stream (ad_stream c))) /\
  fhs_rep (ad_headers c) (headers_of 0 (concat rows)).
Proof.
  intros [[(T1 & (T2 & _) & _) _ _] (G1 & G2 & _) ST HK _]. split; [auto|]. split; [auto|]. split; [|split; [auto|split]].
  - eapply Forall_impl; [|exact T1]. intros fc [_ X]. exact X.
  - apply kept_ext in HK. apply HK.
  - destruct rec as [_ HH]. rewrite ST. exact HH.
Qed.

Lemma tape_start : tape_from level ch pcms 0 =
  interleave f0 (Z.to_nat (total_blocks ch pcms)) (map (fun c => map restore_in_range (lossy (quant_signal (inv_gain level) ch pcms c))) (range ch)).
Proof.
  unfold tape_from. pose proof HR as (Hch & _). pose proof (call_start_bounds ch pcms 0 Hch ltac:(lia)) as B.
  assert (call_start ch 0 pcms = 0) as -> by lia. rewrite !Z.sub_0_r. reflexivity.
Qed.

(** Rewound, a codec plays the whole recording. *)
Lemma rewound c : seated c -> seat (ad_init c) (mkPlayer (tape_from level ch pcms 0) (ad_scale c)).
Proof.
  intros H. destruct (seat_facts c H) as (H1 & H2 & H3 & H4 & H5 & H6). destruct rec as [H7 _].
  pose proof (init_decoding p c info m rows H1 H2 H3 H4 H5 H6 H7) as HD. fold ch in HD.
  pose proof HR as (Hch & HF & _). pose proof H7 as (_ & HO & _). fold ch in HO.
  destruct (output_len p (inv_gain level) ch pcms Hch HF HO) as [L HL]. fold rows in L, HL.
  assert (ER : reach_run 0 rows = total_blocks ch pcms) by (unfold rows; rewrite frames_reach by auto; now apply audible_all).
  rewrite ER in HD. pose proof (total_blocks_nonneg ch pcms Hch) as T0.
  destruct H as [T G ST K V]. constructor; cbn [left volume]; [constructor| |].
  - now apply init_typed.
  - now apply init_good.
  - eapply same_table_trans; [exact ST|]. apply (init_same c).
  - destruct K as [n K]. exists n. exact K.
  - exact V.
  - reflexivity.
  - right. exists (full_output ch rows), (Z.to_nat (total_blocks ch pcms)). split; [exact HD|]. rewrite Z2Nat.id by auto. split; [exact HL|].
    split; [exact L|]. rewrite tape_start. unfold rows. now rewrite (output_lossy p) by auto.
Qed.

(** After a seek, it plays from there on. *)
Lemma sought c pl ms : seat c pl -> ms <> 0 -> pcms <> [] -> target_block info ms <= total_blocks ch pcms ->
  exists c', ad_seek p c (SStart ms) = Ok c' /\ seat c' (mkPlayer (tape_from level ch pcms (target_block info ms)) (volume pl)).
Proof.
  intros H Hms Hne Ht. destruct (seat_facts c (st_held _ _ H)) as (H1 & H2 & H3 & H4 & H5 & H6). destruct rec as [H7 _].
  set (t := target_block info ms) in *.
  pose proof HR as (Hch & Hfirst & _ & _ & Hlen).
  pose proof (frames_sizes (inv_gain level) ch pcms HR) as HF. fold rows in HF.
  pose proof (sum_total ch rows pcms HF) as HS.
  pose proof (total_samples_blocks ch pcms) as TB. pose proof (total_samples_bound ch pcms Hch) as TS.
  assert (Lr : length rows = length pcms) by (eapply Forall2_len; eauto).
  pose proof (target_nonneg info ms) as T0. fold t in T0.
  destruct (seek_spec p c info m rows ms H1 H2 H3 H4 H5 H6 H7 (frames_marked _ _ _)) as (c' & i & EK & SS & Hi & Hb & Wi & HD);
    try (fold t); try (fold ch); auto; try lia.
  { intros X. apply (f_equal (@length _)) in X. rewrite Lr in X. cbn [length] in X. apply Hne. now apply length_zero_iff_nil. }
  exists c'. split; [exact EK|].
  fold t in Wi, Hb, HD. clearbody t.
  destruct H7 as (HM & HO & _). fold ch in HO.
  destruct (seek_output p (inv_gain level) ch pcms i HR HO ltac:(lia)) as [Hs HOut]. fold rows in Hs, HOut.
  assert (Es : block_of_row rows i = call_start ch t pcms).
  { unfold block_of_row. rewrite Wi, (walk_start ch t pcms Hch rows 0 HF) by lia. f_equal. lia. }
  assert (Ereach : reach_run 0 (skipn (S i) rows) = sum_n (skipn (S i) rows)).
  { apply reach_gap_ok.
    - apply (gap_ok_app (firstn (S i) rows)). rewrite firstn_skipn. unfold rows, frames_of.
      apply make_rows_gap; auto; [unfold zlen; rewrite repeat_length; lia|now apply first_ok_rec].
    - pose proof (DecodeFacts.rows_ok_sizes p _ _ HO) as X. rewrite <- (firstn_skipn (S i) rows) in X. apply Forall_app in X. tauto. }
  assert (Esum : sum_n rows = block_of_row rows i + row_n (nth i rows []) + sum_n (skipn (S i) rows)).
  { unfold block_of_row. clear -Hi. clearbody rows. revert Hi. generalize rows as l. clear rows. induction i as [|i IH]; intros [|r l] Hi; cbn [length] in Hi; try lia.
    - cbn [firstn nth skipn]. unfold sum_n. cbn [map fold_right]. lia.
    - specialize (IH l ltac:(lia)). change (skipn (S (S i)) (r :: l)) with (skipn (S i) l). cbn [firstn nth].
      unfold sum_n in *. cbn [map fold_right]. lia. }
  set (s := call_start ch t pcms) in *. set (T := total_blocks ch pcms) in *.
  rewrite Ereach, HOut, Es in HD. rewrite Es in Hs, Hb, Esum.
  replace (Z.to_nat (row_n (nth i rows []) - (t - s) + sum_n (skipn (S i) rows))) with (Z.to_nat (T - t)) in HD by lia.
  set (k := Z.to_nat (t - s)) in *.
  assert (LQ : forall x, 0 <= x < ch -> zlen (quant_signal (inv_gain level) ch pcms x) = T).
  { intros x Hx. rewrite quant_signal_calls by lia. apply zlen_chan_calls; auto. lia. }
  pose proof EK as EK2. apply seek_same in EK2. destruct H as [[TY G ST K SC] V _]. constructor; cbn [left volume]; [constructor| |].
  - eapply seek_typed; eauto.
  - eapply seek_good; eauto.
  - eapply same_table_trans; [exact ST|]. apply EK2.
  - eapply kept_trans; [exact K|]. eapply seek_kept; eauto.
  - destruct SS as (-> & -> & _). exact SC.
  - destruct SS as (_ & -> & _). exact V.
  - right. eexists _, (Z.to_nat (T - t)). split; [exact HD|]. split; [|split].
    + apply Forall_map, Forall_map. apply Forall_forall. intros x Hx. apply in_range in Hx.
      rewrite zlen_skipn, zlen_map, length_resumed by (rewrite LQ; auto). rewrite LQ by auto. subst k. lia.
    + now rewrite !map_length, length_range.
    + unfold tape_from. fold s T k. f_equal. rewrite map_map. apply map_ext. intros x. now rewrite skipn_map.
Qed.

(** A decode call plays its share. *)
Lemma listened c pl buf : seat c pl ->
  let n := share ch pl buf in
  exists c', ad_decode p c buf = Ok (c', map (fun x => fmul x (volume pl)) (firstn n (left pl) ++ skipn n buf),
                                     if (n =? 0)%nat then None else Some (Z.of_nat n)) /\
    seat c' (mkPlayer (skipn n (left pl)) (volume pl)).
Proof.
  intros H n. pose proof H as [[TY G ST K SC] V [(C1 & C2 & C3 & C4)|(rem & r & HD & HT & HL & EL)]].
  - assert (n = 0%nat) as -> by (unfold n, share; rewrite C4; cbn [length]; lia).
    exists c. rewrite C4. cbn [firstn skipn app Nat.eqb]. rewrite <- V. split; [apply (idle_decode p info level pcms c1); auto|].
    constructor; cbn [left volume]; [apply H|auto|auto].
  - destruct (decode_spec p c info m rows rem r buf HD) as (c' & R1 & E1 & D1 & S1 & HR1).
    pose proof HR as (Hch & _). fold ch in E1, D1, HR1. set (nch := Z.to_nat ch) in *.
    set (k := Nat.min (length buf / nch) r) in *.
    assert (En : n = (k * nch)%nat).
    { unfold n, share. rewrite EL, interleave_len, HL. unfold k. rewrite <- Nat.mul_min_distr_r. f_equal.
      unfold zlen. apply Nat2Z.inj. rewrite Z2Nat.id by (apply Z.mul_nonneg_nonneg; [lia|apply Z.div_pos; lia]).
      rewrite Nat2Z.inj_mul, Nat2Z.inj_div, Z.mul_comm. unfold nch. rewrite Z2Nat.id by lia. reflexivity. }
    assert (EF : firstn n (left pl) = interleave f0 k rem /\ skipn n (left pl) = interleave f0 (r - k) (map (skipn k) rem)).
    { rewrite EL. replace r with (k + (r - k))%nat at 1 2 by (unfold k; lia). rewrite interleave_add.
      assert (Lk : n = length (interleave f0 k rem)) by (rewrite interleave_len, HL; exact En).
      rewrite Lk, firstn_app, Nat.sub_diag, firstn_all, skipn_app, Nat.sub_diag, skipn_all. cbn [firstn skipn]. rewrite app_nil_r. auto. }
    destruct EF as [EF EK].
    assert (HT1 : Forall (fun l => zlen l = Z.of_nat (r - k)) (map (skipn k) rem)).
    { apply Forall_map. eapply Forall_impl; [|apply HT]. cbn. intros l Hx. rewrite zlen_skipn. lia. }
    pose proof (decoding_reach_le p c' info m rows _ R1 _ D1 HT1) as HRT1.
    assert (ER1 : R1 = (r - k)%nat).
    { destruct (Nat.le_gt_cases (length buf / nch) r) as [Hle|Hgt].
      - rewrite HR1 by auto. subst k. lia.
      - subst k. lia. }
    exists c'. rewrite E1, EF, <- V, <- En. split.
    { f_equal. f_equal. destruct (Nat.ltb_spec 0 k) as [X|X], (Nat.eqb_spec n 0) as [Y|Y]; auto; exfalso; unfold nch in *; nia. }
    pose proof E1 as E2. apply decode_same in E2. constructor; cbn [left volume]; [constructor| |].
    + eapply decode_typed; eauto.
    + eapply decode_good; eauto.
    + eapply same_table_trans; [exact ST|]. apply E2.
    + eapply kept_trans; [exact K|]. eapply decode_kept; eauto.
    + destruct S1 as (-> & -> & _). exact SC.
    + destruct S1 as (_ & -> & _). reflexivity.
    + right. exists (map (skipn k) rem), (r - k)%nat. rewrite <- ER1 at 1. split; [exact D1|]. split; [exact HT1|]. split; [now rewrite map_length|exact EK].
Qed.

Lemma past c ms : as_info (ad_stream c) = Some info -> fhs_rep (ad_headers c) (headers_of 0 (concat rows)) -> ms <> 0 ->
  p = Debug \/ target_block info ms * ch < 2 ^ 64 -> total_blocks ch pcms < target_block info ms \/ pcms = [] ->
  respond (ad_seek p c (SStart ms)) (fun c => (c, Done)) = (None, Panicked).
Proof.
  intros H1 H6 Hms Hp Ht. destruct rec as [H7 _]. set (t := target_block info ms) in *.
  pose proof HR as (Hch & Hfirst & _ & _ & Hlen).
  pose proof (frames_sizes (inv_gain level) ch pcms HR) as HF. fold rows in HF.
  pose proof (sum_total ch rows pcms HF) as HS.
  pose proof (total_samples_blocks ch pcms) as TB. pose proof (total_samples_bound ch pcms Hch) as TS.
  pose proof (target_nonneg info ms) as T0. fold t in T0.
  assert (HB : sum_n rows * ch < 2 ^ 64).
  { rewrite HS. apply Z.le_lt_trans with (2 ^ 58); [lia|]. apply Z.pow_lt_mono_r; lia. }
  destruct (seek_past_end p c info m rows ms H1 H6 H7 HB Hms) as [S1 S2]; try (fold t); try lia.
  { destruct Ht as [Ht|Ht]; [left; lia|right]. unfold rows. rewrite Ht. reflexivity. }
  fold t ch in S1, S2. destruct (Z.lt_ge_cases (t * ch) (2 ^ 64)) as [L|L].
  - now rewrite S1.
  - destruct Hp as [->|]; [|lia]. now rewrite S2.
Qed.

Lemma one_step c pl r : seat c pl -> askable p info r ->
  match ask p c r, reply info level pcms pl r with
  | (Some c', a), (Some pl', a') => a = a' /\ seat c' pl'
  | (None, a), (None, a') => a = a'
  | _, _ => False
  end.
Proof.
  intros H HA. pose proof (st_vol _ _ H) as V. destruct (seat_facts c (st_held _ _ H)) as (H1 & H2 & H3 & H4 & H5 & H6).
  destruct r as [[buf| |dt]|l| |]; cbn [ask reply].
  - destruct (listened c pl buf H) as (c' & E1 & S1). fold ch. rewrite E1. cbn [respond]. auto.
  - fold ch. unfold wind. rewrite <- V. split; auto. apply rewound, H.
  - destruct dt as [ms|ms|ms].
    2,3: unfold ad_seek, ad_info; rewrite H1; reflexivity.
    destruct (Z.eqb_spec ms 0) as [->|Hms].
    { unfold ad_seek, ad_info. rewrite H1. cbn [expect bind Z.eqb respond]. unfold wind. rewrite <- V. split; auto. apply rewound, H. }
    fold ch. destruct (Z.leb_spec (target_block info ms) (total_blocks ch pcms)) as [Ht|Ht]; cbn [andb].
    + destruct (Z.eqb_spec (zlen pcms) 0) as [Hz|Hz]; cbn [negb].
      * cbn [askable] in HA. fold ch in HA. assert (Hn : pcms = []) by (apply length_zero_iff_nil; unfold zlen in Hz; lia).
        now rewrite (past c ms H1 H6 Hms) by auto.
      * destruct (sought c pl ms H Hms) as (c' & E1 & S1); auto; [intros X; apply Hz; now rewrite X|]. rewrite E1. cbn [respond wind]. auto.
    + cbn [askable] in HA. fold ch in HA. now rewrite (past c ms H1 H6 Hms) by auto.
  - cbn [askable] in HA. split; auto. destruct H as [[[T1 T2 T3] G ST K SC] _ L]. constructor; [constructor| |]; cbn [left volume]; auto.
    + constructor; auto. cbn [ad_with_level ad_level]. unfold zclamp, in_range_u. destruct (Z.ltb_spec l 0); [lia|]. destruct (Z.ltb_spec 10 l); lia.
    + apply level_form.
    + now apply level_scale.
  - rewrite (table_count p c1 c).
    + fold ch. rewrite (recording_count p info level pcms c1 Hl HR E). cbn [respond]. auto.
    + apply H.
    + rewrite H1. symmetry. apply (st_good _ (st_held _ _ start)).
  - unfold ad_info. rewrite H1. cbn [expect respond]. auto.
Qed.

Lemma all_steps rs : Forall (askable p info) rs -> forall c pl, seat c pl -> conversation p rs c = replies info level pcms rs pl.
Proof.
  intros F. induction F as [|r rs Hr F IH]; intros c pl H; cbn [conversation replies]; [reflexivity|].
  pose proof (one_step c pl r H Hr) as S.
  destruct (ask p c r) as [[c'|] a], (reply info level pcms pl r) as [[pl'|] a']; try contradiction.
  - destruct S as [-> S]. f_equal. auto.
  - now subst a'.
Qed.

Lemma stays rs : Forall (askable p info) rs -> forall c pl l, seat c pl -> volume pl = gain l -> forall c', codec_after p rs c = Some c' ->
  seated c' /\ ad_scale c' = gain (level_after l rs).
Proof.
  intros F. induction F as [|r rs Hr F IH]; intros c pl l H V c' Ec; cbn [codec_after] in Ec.
  - injection Ec as <-. split; [apply H|]. rewrite (st_vol _ _ H). exact V.
  - pose proof (one_step c pl r H Hr) as S. unfold level_after. cbn [fold_left].
    destruct (ask p c r) as [[c2|] a]; cbn [fst] in Ec; [|discriminate].
    destruct (reply info level pcms pl r) as [[pl'|] a'] eqn:ER; [|contradiction]. destruct S as [_ S].
    apply (IH c2 pl' _ S); [|exact Ec].
    clear -ER V. destruct r as [[buf| |[ms|ms|ms]]|l'| |]; cbn [reply] in ER; unfold wind in ER; try discriminate.
    all: repeat match type of ER with context [if ?b then _ else _] => destruct b; try discriminate end.
    all: injection ER as <- _; cbn [volume]; auto.
Qed.

(** A file saved then is a player again. *)
Lemma reloaded c q : seated c -> in_memory c ->
  exists c', ad_load q (ad_save c) = Ok (Some c') /\ seat c' (mkPlayer (tape_from level ch pcms 0) (ad_scale c)).
Proof.
  intros H M. pose proof H as [TY G ST K [SL SC]].
  assert (HF : fits c).
  { destruct M as (M1 & M2 & M3 & M4 & M5 & M6). destruct TY as [(F & (S1 & S2 & S3) & T) L I]. destruct T. constructor; auto. constructor; auto. }
  destruct G as (G1 & G2 & G3). pose proof (load_spec q c info [] HF G1 ltac:(lia)) as EL. rewrite app_nil_r in EL.
  set (c0 := mkAdhoc (ad_headers c) (repeat fc_new (Z.to_nat ch)) (ad_stream c) (ad_level c) (f32_of_Z (2 ^ ad_level c)) (fdiv f1 (f32_of_Z (2 ^ ad_level c))) 314).
  eexists. split; [exact EL|].
  assert (E0 : mkAdhoc (fhs_reset (ad_headers c)) (repeat fc_new (Z.to_nat (si_channels info)))
    (mkAS (Some info) (bs_seek_start (as_stream (ad_stream c)))) (ad_level c) (f32_of_Z (2 ^ ad_level c)) (fdiv f1 (f32_of_Z (2 ^ ad_level c))) 314 = ad_init c0).
  { unfold ad_init, c0. cbn [ad_headers ad_channels ad_stream ad_level ad_scale ad_inv_scale ad_seq]. rewrite G1. fold ch. f_equal.
    generalize (Z.to_nat ch). intros k. induction k; cbn [repeat map]; f_equal; auto. }
  rewrite E0, SC. change (f32_of_Z (2 ^ ad_level c)) with (ad_scale c0). apply rewound.
  pose proof HR as (Hch & _). destruct TY as [(F & SF & TF) L I]. constructor.
  - constructor; auto. cbn [c0 ad_channels ad_stream ad_headers]. split; [|split; auto]. apply Forall_repeat. apply new_stack_fits.
  - split; [exact G1|]. split; [unfold c0; cbn [ad_channels]; unfold zlen; rewrite repeat_length; lia|].
    cbn [c0 ad_channels]. apply Forall_repeat. intros X. cbn in X. congruence.
  - exact ST.
  - exact K.
  - split; [exact SL|reflexivity].
Qed.
End Played.

(** ** C88: a listener cannot tell the codec from a player *)
(** Right after the recording nothing is left to be played; from then on all answers to all
    requests are those of the player. *)
Theorem C88_player : forall p info level pcms c1 rs,
  let ch := si_channels info in
  0 <= level -> info_fits info -> recording_ok ch pcms -> no_long_gap ch pcms ->
  encode_all p (new_codec info level) pcms = Ok c1 -> Forall (askable p info) rs ->
  conversation p rs c1 = replies info level pcms rs (mkPlayer [] (gain level)).
Proof.
  intros p info level pcms c1 rs ch Hl HI HR HG E F. apply (all_steps p info level pcms c1); auto. now apply start.
Qed.
Print Assumptions C88_player.

(** A codec saved at any time and loaded again is the player again, rewound and with the volume of
    the level set last. *)
Theorem C88_saved : forall p info level pcms c1 rs c q rs',
  let ch := si_channels info in
  0 <= level -> info_fits info -> recording_ok ch pcms -> no_long_gap ch pcms ->
  encode_all p (new_codec info level) pcms = Ok c1 -> Forall (askable p info) (rs ++ rs') ->
  codec_after p rs c1 = Some c -> in_memory c ->
  exists c', ad_load q (ad_save c) = Ok (Some c') /\
    conversation p rs' c' = replies info level pcms rs' (mkPlayer (tape_from level ch pcms 0) (gain (level_after level rs))).
Proof.
  intros p info level pcms c1 rs c q rs' ch Hl HI HR HG E F Ec M. apply Forall_app in F. destruct F as [F F'].
  destruct (stays p info level pcms c1 Hl HI HR HG E rs F c1 (mkPlayer [] (gain level)) level) with (c' := c) as [S V]; auto.
  { now apply start. }
  destruct (reloaded p info level pcms c1 Hl HR HG E c q S M) as (c' & EL & SE). exists c'. split; [exact EL|].
  rewrite V in SE. eapply all_steps; eauto.
Qed.
Print Assumptions C88_saved.

(** What is on the tape: when no prediction error is out of range, seeking is winding, and the
    tape holds the quantised samples. *)
Theorem C88_tape : forall level ch pcms t,
  recording_ok ch pcms -> (forall c, 0 <= c < ch -> tame (quant_signal (inv_gain level) ch pcms c)) ->
  0 <= t <= total_blocks ch pcms ->
  tape_from level ch pcms t = skipn (Z.to_nat (ch * t)) (tape_from level ch pcms 0) /\
  map (fun x => fmul x (gain level)) (tape_from level ch pcms 0) = decoded_signal level ch pcms.
Proof.
  intros level ch pcms t HR HT Ht. pose proof HR as (Hch & H3 & _).
  set (T := total_blocks ch pcms) in *. set (sig := fun c => map restore_in_range (quant_signal (inv_gain level) ch pcms c)).
  assert (LQ : forall x, 0 <= x < ch -> zlen (quant_signal (inv_gain level) ch pcms x) = T).
  { intros x Hx. rewrite quant_signal_calls by lia. apply zlen_chan_calls; auto. lia. }
  assert (G : forall t, 0 <= t <= T -> tape_from level ch pcms t = interleave f0 (Z.to_nat (T - t)) (map (skipn (Z.to_nat t)) (map sig (range ch)))).
  { clear t Ht. intros t Ht. unfold tape_from. pose proof (call_start_bounds ch pcms t Hch ltac:(lia)) as HB.
    assert (Hs : call_start ch t pcms = 0 \/ 3 <= call_start ch t pcms).
    { destruct pcms as [|pcm pcms']; cbn [call_start] in *; [auto|].
      destruct (Z.leb_spec t (zlen pcm / ch)); [auto|]. right.
      pose proof (call_start_bounds ch pcms' (t - zlen pcm / ch) Hch ltac:(lia)).
      pose proof (Z.div_le_lower_bound (zlen pcm) ch 3 Hch ltac:(lia)). lia. }
    set (s := call_start ch t pcms) in *. clearbody s. fold T. f_equal. rewrite map_map. apply map_ext_in. intros c Hc. apply in_range in Hc.
    rewrite resumed_tame; [|eapply Forall_impl; [|apply quant_signal_range]; cbv beta; intros; unfold i16; lia|auto|rewrite LQ; lia].
    unfold sig. rewrite skipn_map, skipn_plus. do 2 f_equal. lia. }
  assert (L : Forall (fun l => zlen l = T) (map sig (range ch))).
  { apply Forall_map, Forall_forall. intros c Hc. apply in_range in Hc. unfold sig. rewrite zlen_map. auto. }
  split.
  - rewrite (G t Ht), (G 0) by lia. cbn [Z.to_nat]. rewrite map_skipn_0, Z.sub_0_r.
    replace (Z.to_nat T) with (Z.to_nat t + Z.to_nat (T - t))%nat by lia.
    rewrite interleave_add, skipn_app, skipn_all2.
    2: { rewrite interleave_len, map_length, length_range. nia. }
    rewrite interleave_len, map_length, length_range.
    replace (Z.to_nat (ch * t) - Z.to_nat t * Z.to_nat ch)%nat with 0%nat by nia. reflexivity.
  - rewrite (G 0) by lia. cbn [Z.to_nat]. rewrite map_skipn_0, Z.sub_0_r.
    rewrite (map_interleave _ f0 f0) by (eapply Forall_impl; [|exact L]; unfold zlen; cbv beta; intros; lia).
    unfold decoded_signal, output_of. fold T. f_equal. rewrite map_map. apply map_ext. intros c. f_equal. unfold sig.
    apply map_ext_in. intros q Hq. apply clamp_normalize.
    pose proof (quant_signal_range (inv_gain level) ch pcms c) as HQ. rewrite Forall_forall in HQ. now apply HQ.
Qed.
Print Assumptions C88_tape.
(** The stereo recording of eight blocks at 4 kHz: nothing is played before the rewind; two of the
    five places of a buffer hold no whole block; block 4 is 1 ms in; 3 ms are past the end. *)
Definition shape (a : answer) : Z * Z :=
  match a with
  | Filled buf None => (0, zlen buf) | Filled buf (Some n) => (n, zlen buf)
  | Done => (-1, 0) | Number n => (-2, n) | Facts info => (-3, si_rate info) | Panicked => (-4, 0) | Hung => (-5, 0)
  end.
Definition listener : list request :=
  [Play (Listen (repeat f0 4)); CountSamples; Play Rewind; Play (Listen (repeat f0 5)); SetLevel 1; Play (SeekTo (SStart 1)); AskInfo;
   Play (Listen (repeat f0 6)); Play (Listen (repeat f0 20)); Play (SeekTo (SStart 3)); Play Rewind].
Example C88_applies : let info := mkInfo 4000 2 in
  info_fits info /\ recording_ok 2 demo /\ no_long_gap 2 demo /\ Forall (askable Debug info) listener /\
  match encode_all Debug (new_codec info 4) demo with
  | Ok c1 => map shape (conversation Debug listener c1)
             = [(0, 4); (-2, 8); (-1, 0); (4, 5); (-1, 0); (-1, 0); (-3, 4000); (6, 6); (2, 20); (-4, 0)]
  | _ => False end.
Proof.
  cbv zeta. split; [unfold info_fits, in_range_u; cbn; lia|]. split; [apply demo_ok|]. split; [apply demo_gap|].
  split; [|vm_compute; reflexivity].
  repeat (constructor; [first [exact I | left; reflexivity | cbn [askable]; lia]|]). constructor.
Qed.
(** The codec of the example, saved in the middle of the playback. *)
Example C88_saved_applies :
  match encode_all Debug (new_codec (mkInfo 4000 2) 4) demo with
  | Ok c1 => match codec_after Debug (firstn 8 listener) c1 with Some c => in_memory c | None => False end
  | _ => False end /\ level_after 4 (firstn 8 listener) = 1.
Proof. vm_compute. repeat split; discriminate. Qed.
