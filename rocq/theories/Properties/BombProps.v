(** * Property C84: how much a hostile file can make a player produce *)
From Coq Require Import ZArith List Bool Lia.
From Verif Require Import Model.Base Model.F32 Model.Sample Model.BitStream Model.NibbleList Model.BitVec Model.Frame Model.Adhoc Model.Bincode
  Model.Wav Model.Cli Model.Steps Spec.Bombs Spec.Wave Spec.Recording Spec.Files Spec.Damage Spec.Speed
  Proofs.BaseFacts Proofs.AnyState Proofs.DecodeFacts Proofs.DamageFacts Proofs.DamageFile Proofs.DamageRecording Proofs.Terminates Proofs.FileFacts
  Proofs.WavFile Proofs.WavFacts Proofs.BombFacts Proofs.BombTool Properties.DamageProps Properties.FileProps Properties.TerminationProps Properties.SpeedProps.
Import ListNotations.
Open Scope Z_scope.

(** ** The codec a file gives *)
Lemma loads_table p file c info : Forall byte file -> ad_load p file = Ok (Some c) -> ad_info c = Ok info ->
  u16s (ad_headers c) /\ 0 <= si_channels info < 2 ^ 32 /\ zlen (ad_channels c) = si_channels info /\ peak (ad_channels c) = 0 /\ held (ad_channels c) = 0 /\
  readable (ad_headers c) <= frames_that_fit (zlen file) /\ 0 <= frames_that_fit (zlen file).
Proof.
  intros HB HL HI. destruct (load_shape _ _ _ HL) as (lvl & h & s & r & sc & info' & G & Hi & EC).
  assert (info' = info) by (subst c; unfold ad_info, ad_init in HI; cbn [ad_stream as_info] in HI; rewrite Hi in HI; now injection HI). subst info'.
  destruct (get_codec_types _ _ _ _ _ HB G) as (T1 & T2 & _ & _ & T5). specialize (T5 _ Hi).
  destruct (C65_tables_bounded p file c info HL HI ltac:(lia)) as [TB ZC]. unfold table_bytes in TB.
  assert (HH : ad_headers c = fhs_reset h) by (subst c; reflexivity).
  assert (CC : ad_channels c = repeat fc_new (Z.to_nat (si_channels info))) by (subst c; cbn [ad_init ad_channels]; apply map_init_new).
  split; [rewrite HH; split; [eapply Forall_impl; [|exact T2]; cbv beta; lia|]; split; [cbn; lia|exact (proj2 T1)]|].
  split; [exact T5|]. split; [exact ZC|]. rewrite CC.
  split; [generalize (Z.to_nat (si_channels info)) as k; induction k as [|k IH]; [reflexivity|cbn [repeat]; unfold peak in *; cbn [map fold_right]; rewrite IH; reflexivity]|].
  split; [generalize (Z.to_nat (si_channels info)) as k; induction k as [|k IH]; [reflexivity|cbn [repeat]; unfold held in *; cbn [map fold_right]; rewrite IH; reflexivity]|].
  unfold frames_that_fit, readable.
  pose proof (zlen_nonneg (nl_data (fhs_exps (ad_headers c)))). pose proof (zlen_nonneg (bv_binary (fhs_inits (ad_headers c)))).
  pose proof (zlen_nonneg (fhs_sizes (ad_headers c))). pose proof (zlen_nonneg (fhs_cursors (ad_headers c))).
  pose proof (zlen_nonneg (fhs_hists (ad_headers c))). pose proof (zlen_nonneg (bs_binary (as_stream (ad_stream c)))).
  assert (F0 : 0 <= (zlen file - 117) / 16) by (apply Z.div_pos; lia). split; [|exact F0].
  assert (C0 : 0 <= fhs_cursor (ad_headers c)) by (rewrite HH; cbn; lia).
  apply Z.max_lub; [exact F0|]. apply Z.div_le_lower_bound; lia.
Qed.

(** ** Samples *)
(** Whatever a file claims, and however its decode calls are sized, a codec loaded from it yields at most
    65535 samples for every turn of its channels at a frame table that fits into the file. *)
Theorem C84_samples : forall p file c info bufs,
  Forall byte file -> ad_load p file = Ok (Some c) -> ad_info c = Ok info -> 0 < si_channels info ->
  played p c bufs <= most_samples (si_channels info) (frames_that_fit (zlen file)).
Proof.
  intros p file c info bufs HB HL HI Hn. destruct (loads_table _ _ _ _ HB HL HI) as (U & _ & ZC & P0 & _ & R & F0).
  eapply Z.le_trans; [apply (played_blocks p info); auto|]. unfold codec_state. cbn [blocks_left]. rewrite P0. unfold most_samples.
  pose proof (up_mono _ _ _ Hn R). nia.
Qed.
Print Assumptions C84_samples.
(** In round numbers: 65535 samples for each frame, and one frame more for every further channel. *)
Theorem C84_linear : forall p file c info bufs,
  Forall byte file -> ad_load p file = Ok (Some c) -> ad_info c = Ok info -> 0 < si_channels info ->
  played p c bufs <= 65535 * (frames_that_fit (zlen file) + si_channels info - 1).
Proof.
  intros p file c info bufs HB HL HI Hn. eapply Z.le_trans; [eapply C84_samples; eauto|].
  destruct (loads_table _ _ _ _ HB HL HI) as (_ & _ & _ & _ & _ & _ & F0). unfold most_samples. pose proof (up_total _ _ Hn F0). lia.
Qed.
Print Assumptions C84_linear.

(** ** Samples held back *)
(** Between calls a codec never holds back more than one frame for every channel, nor more than the frames
    the file has room for. *)
Theorem C84_held : forall p file c info c',
  Forall byte file -> ad_load p file = Ok (Some c) -> ad_info c = Ok info -> 0 < si_channels info -> after_calls p c c' ->
  waiting c' <= 65535 * Z.min (si_channels info) (frames_that_fit (zlen file)).
Proof.
  intros p file c info c' HB HL HI Hn HC. destruct (loads_table _ _ _ _ HB HL HI) as (U & _ & ZC & P0 & H0 & R & F0).
  destruct (calls_held p (65535 * frames_that_fit (zlen file)) c c' info HC HI Hn) as (_ & Z1 & U1 & P1 & S1).
  { unfold codec_state. split; [exact ZC|]. split; [exact U|]. cbn [fst snd]. split; [lia|]. unfold supplied. cbn [fst snd]. rewrite H0. lia. }
  unfold codec_state, supplied in *. cbn [fst snd] in *. change (waiting c') with (held (ad_channels c')).
  pose proof (held_peak (ad_channels c')) as HP. rewrite Z1 in HP.
  assert (0 <= readable (ad_headers c')) by (unfold readable; lia). pose proof (peak_nonneg (ad_channels c')). nia.
Qed.
Print Assumptions C84_held.

(** ** Time *)
Lemma get_codec_cursors file lvl h s r : Forall byte file -> get_codec file = Some (lvl, h, s, r) -> Forall (in_range_u 64) (fhs_cursors h).
Proof.
  intros Hf E. unfold get_codec in E. unfold pbind at 1 in E. destruct (get_u32 file) as [[lv r1]|] eqn:G1; [|discriminate].
  destruct (reads_uint 4 _ _ _ Hf G1) as (_ & Hr1 & _).
  unfold pbind at 1 in E. destruct (get_headers r1) as [[hh r2]|] eqn:G2; [|discriminate].
  assert (h = hh) by (unfold pbind in E; destruct (get_info r2) as [[ii r3]|]; [|discriminate]; destruct (get_bitstream r3) as [[bs r4]|]; [|discriminate];
    unfold pret in E; congruence). subst hh.
  refine (proj1 ((_ : reads (fun h => Forall (in_range_u 64) (fhs_cursors h)) get_headers) _ _ _ Hr1 G2)). unfold get_headers.
  eapply reads_bind with (P := fun _ => True).
  { unfold get_nibble_list. eapply reads_bind; [apply reads_vec', (reads_uint 1)|]. intros d _.
    eapply reads_bind; [apply (reads_uint 4)|]. intros k Hk. apply reads_ret. exact I. }
  intros e _. eapply reads_bind with (P := fun _ => True).
  { unfold get_bitvec. eapply reads_bind; [apply reads_vec', (reads_uint 8)|]. intros d _.
    eapply reads_bind; [apply (reads_uint 16)|]. intros k Hk. apply reads_ret. exact I. }
  intros i _. eapply reads_bind; [apply reads_vec', (reads_uint 2)|]. intros sz _.
  eapply reads_bind; [apply reads_vec', (reads_uint 8)|]. intros cu Hcu.
  eapply reads_bind with (P := fun _ => True).
  { eapply reads_imp; [|apply (reads_vec' (fun _ => True))]; auto. unfold get_history, get_i16, pmap.
    repeat (eapply reads_bind; [eapply reads_bind; [apply (reads_uint 2)|intros; apply reads_ret with (P := fun _ => True); exact I]|]; intros ? _).
    apply reads_ret. exact I. }
  intros hi _. eapply reads_bind; [apply (reads_uint 4)|]. intros k _. apply reads_ret. exact Hcu.
Qed.
(** Decoding a file takes time in proportion to the buffers given and to the file, whatever the file claims. *)
Theorem C84_steps : forall p file c info bufs,
  Forall byte file -> zlen file < 2 ^ 32 -> ad_load p file = Ok (Some c) -> ad_info c = Ok info ->
  decode_steps p c bufs <= 56 * samples bufs + 2 * zlen bufs + 294921 * zlen file.
Proof.
  intros p file c info bufs HB HZ HL HI. destruct (loads_table _ _ _ _ HB HL HI) as ((U1 & U2 & U3) & [Hn _] & ZC & _).
  destruct (C65_tables_bounded p file c info HL HI Hn) as [TB _]. unfold table_bytes in TB.
  destruct (load_shape _ _ _ HL) as (lvl & h & s & r & sc & info' & G & Hi & EC).
  pose proof (get_codec_cursors _ _ _ _ _ HB G) as T3.
  pose proof (zlen_nonneg (nl_data (fhs_exps (ad_headers c)))). pose proof (zlen_nonneg (bv_binary (fhs_inits (ad_headers c)))).
  pose proof (zlen_nonneg (fhs_sizes (ad_headers c))). pose proof (zlen_nonneg (fhs_cursors (ad_headers c))).
  pose proof (zlen_nonneg (fhs_hists (ad_headers c))). pose proof (zlen_nonneg (bs_binary (as_stream (ad_stream c)))).
  change (2 ^ 32) with 4294967296 in *.
  eapply Z.le_trans; [apply (C82_decode p c bufs info)|].
  - constructor; auto; try lia.
    + subst c. exact T3.
    + subst c. cbn. change (2 ^ 69) with 590295810358705651712. lia.
  - unfold table_samples, table_frames, memory_bits.
    assert (S : fold_right Z.add 0 (fhs_sizes (ad_headers c)) <= 65535 * zlen (fhs_sizes (ad_headers c))).
    { clear - U1. induction U1 as [|x l Hx _ IH]; cbn [fold_right]; [change (zlen (@nil Z)) with 0; lia|]. rewrite zlen_cons. lia. }
    lia.
Qed.
Print Assumptions C84_steps.

(** ** The bounds are met *)
Lemma bomb_fits info F : info_fits info -> 0 <= F < 2 ^ 32 -> fits (bomb info F).
Proof.
  intros [HR HC] HF. assert (ZR : forall {A} (x : A), zlen (repeat x (Z.to_nat F)) < 2 ^ 64).
  { intros A x. unfold zlen. rewrite repeat_length. change (2 ^ 64) with 18446744073709551616. change (2 ^ 32) with 4294967296 in HF. lia. }
  assert (FR : forall {A} (P : A -> Prop) (x : A), P x -> Forall P (repeat x (Z.to_nat F))) by (intros A P x Hx; apply Forall_forall; intros y Hy; apply repeat_spec in Hy; now subst).
  unfold bomb. constructor; cbn [ad_level ad_headers ad_stream as_info as_stream bs_binary bs_cursor bs_capacity].
  - unfold in_range_u. lia.
  - constructor; cbn [fhs_exps fhs_inits fhs_sizes fhs_cursors fhs_hists fhs_cursor nl_data nl_count bv_binary bv_cursor]; auto;
      try (apply FR); try apply ZR; unfold history_fits, is_i16, in_range_u; change (2 ^ 32) with 4294967296 in *; try lia.
    + change (zlen (@nil Z)) with 0. lia.
    + change (zlen (@nil Z)) with 0. lia.
  - intros i E. injection E as <-. split; assumption.
  - change (zlen (@nil Z)) with 0. lia.
  - constructor.
  - unfold in_range_u. lia.
  - unfold in_range_u. lia.
Qed.

Lemma zlen_repeat {A} (x : A) n : 0 <= n -> zlen (repeat x (Z.to_nat n)) = n.
Proof. intros H. unfold zlen. rewrite repeat_length. lia. Qed.
Lemma bomb_size info F : 0 <= F -> zlen (ad_save (bomb info F)) = 117 + 16 * F.
Proof.
  intros HF. rewrite (zlen_save _ info) by reflexivity. unfold bomb. cbn [ad_headers ad_stream as_stream fhs_exps fhs_inits fhs_sizes fhs_cursors fhs_hists nl_data bv_binary bs_binary].
  rewrite !zlen_repeat by exact HF. change (zlen (@nil Z)) with 0. lia.
Qed.
Lemma bomb_frames info F : 0 <= F -> frames_that_fit (zlen (ad_save (bomb info F))) = F.
Proof. intros HF. rewrite bomb_size by exact HF. unfold frames_that_fit. replace (117 + 16 * F - 117) with (F * 16) by lia. apply Z.div_mul. lia. Qed.
Lemma bomb_loads q info F : info_fits info -> 0 <= F < 2 ^ 32 -> ad_load q (ad_save (bomb info F)) = Ok (Some (loaded (bomb info F) info)).
Proof.
  intros HI HF. rewrite <- (app_nil_r (ad_save _)). rewrite (load_spec q (bomb info F) info []); [reflexivity|now apply bomb_fits|reflexivity|cbn; lia].
Qed.
Lemma bomb_filled info F : 0 < si_channels info -> 0 <= F < 2 ^ 32 ->
  filled 0 (si_channels info) (65535 * rounded_up F (si_channels info)) (codec_state (loaded (bomb info F) info)).
Proof.
  intros Hn HF. assert (G : good 0 (codec_state (loaded (bomb info F) info))).
  { apply (loaded_good (bomb info F) info []); auto.
    - split; [exact (proj1 HF)|]. unfold table_len, bomb, fhs_len, nl_len. cbn [ad_headers fhs_exps fhs_sizes fhs_cursors fhs_hists nl_count]. rewrite !zlen_repeat by lia. lia.
    - exact (proj2 HF).
    - apply Forall_forall. intros x Hx. apply repeat_spec in Hx. subst x. lia.
    - constructor.
    - change (zlen (@nil Z)) with 0. lia. }
  constructor; [exact G| | |].
  - unfold channels_of, codec_state, loaded. cbn [ad_channels fst]. apply zlen_repeat. lia.
  - apply Forall_forall. intros x Hx. apply repeat_spec in Hx. exact Hx.
  - unfold codec_state. cbn [blocks_left]. assert (P : peak (ad_channels (loaded (bomb info F) info)) = 0).
    { unfold loaded. cbn [ad_channels]. generalize (Z.to_nat (si_channels info)) as k. induction k as [|k IH]; [reflexivity|]. cbn [repeat]. unfold peak in *. cbn [map fold_right]. rewrite IH. reflexivity. }
    rewrite P. assert (R : readable (ad_headers (loaded (bomb info F) info)) = F).
    { unfold readable, loaded, bomb, fhs_len, nl_len. cbn [ad_headers fhs_reset fhs_set_cursor fhs_exps fhs_sizes fhs_cursors fhs_hists fhs_cursor nl_count]. rewrite !zlen_repeat by lia. lia. }
    rewrite R. lia.
Qed.
Lemma bomb_info info F : ad_info (loaded (bomb info F) info) = Ok info.
Proof. reflexivity. Qed.
(** In a release build there are files of every length 117 + 16 F that meet the bound for every number of channels:
    they have no compressed data at all. *)
Theorem C84_reached : forall info F buf,
  info_fits info -> 0 < si_channels info -> 0 < F < 2 ^ 32 -> most_samples (si_channels info) F <= zlen buf ->
  zlen (ad_save (bomb info F)) = 117 + 16 * F /\ frames_that_fit (zlen (ad_save (bomb info F))) = F /\
  exists c, ad_load Release (ad_save (bomb info F)) = Ok (Some c) /\ ad_info c = Ok info /\
    played Release c [buf] = most_samples (si_channels info) F.
Proof.
  intros info F buf HI Hn HF Hb. split; [apply bomb_size; lia|]. split; [apply bomb_frames; lia|].
  exists (loaded (bomb info F) info). split; [apply bomb_loads; auto; lia|]. split; [reflexivity|].
  set (n := si_channels info) in *. set (B := 65535 * rounded_up F n).
  destruct (decode_full 0 B (loaded (bomb info F) info) info buf eq_refl Hn (bomb_filled info F Hn ltac:(lia))) as (c' & out & E & _ & _ & _). fold n in E.
  cbn [played]. rewrite E.
  assert (M : most_samples n F = n * B) by (unfold most_samples; subst B; lia). rewrite M in *.
  assert (Q : B <= zlen buf / n) by (apply Z.div_le_lower_bound; lia). rewrite Z.min_r by exact Q.
  assert (R : 1 <= rounded_up F n) by (unfold rounded_up; apply Z.div_le_lower_bound; lia).
  destruct (Z.ltb_spec 0 (n * B)) as [P|P]; [lia|]. exfalso. assert (0 < B) by lia. clearbody B. nia.
Qed.
Print Assumptions C84_reached.
(** Not vacuous: 133 bytes, 1024 channels. *)
Example C84_example : let info := mkInfo 48000 1024 in info_fits info /\ zlen (ad_save (bomb info 1)) = 133 /\ most_samples 1024 1 = 67107840.
Proof. vm_compute. repeat split; try reflexivity; discriminate. Qed.

(** ** The tool *)
(** What the tool writes for a file of the codec is bounded by the size of the file alone. *)
Theorem C84_tool : forall p file out,
  Forall byte file -> zlen file < 2 ^ 40 -> adhoc_to_wav p file = Ok (Some out) ->
  zlen out <= 44 + 131070 * (frames_that_fit (zlen file) + 1023).
Proof.
  intros p file out HB HZ H. unfold adhoc_to_wav in H. inv_bind H. destruct a as [c|]; [|discriminate]. inv_bind H. rename a into info. inv_bind H. inv_bind H.
  assert (a0 = out) by congruence. subst a0. destruct (loads_table _ _ _ _ HB Ha Ha0) as (U & [N0 N1] & ZC & P0 & _ & R & F0).
  set (F := frames_that_fit (zlen file)) in *. set (n := si_channels info) in *.
  assert (FB : F < 2 ^ 40) by (subst F; unfold frames_that_fit; apply Z.div_lt_upper_bound; [lia|]; change (2 ^ 40) with 1099511627776 in *; lia).
  change (wav_new info) with (mkWav info (pcm_bytes []) (zlen (@nil Z))) in Ha1.
  destruct (Z.eq_dec n 0) as [Z0|NZ].
  { exfalso. unfold decode_rounds in Ha1. cbn [adhoc_to_wav_loop] in Ha1. unfold ad_decode at 1 in Ha1. rewrite Ha0 in Ha1. cbn [bind] in Ha1. fold n in Ha1. rewrite Z0 in Ha1.
    discriminate Ha1. }
  assert (Hn : 0 < n) by lia. destruct (Z.le_gt_cases n 1024) as [Small|Big].
  - assert (BL : n * blocks_left n (codec_state c) <= 65535 * (F + 1023)).
    { unfold codec_state. cbn [blocks_left]. rewrite P0. pose proof (up_mono _ _ _ Hn R) as UM. pose proof (up_total _ _ Hn F0). clear - UM H0 Hn Small. nia. }
    destruct (tool_upper p info (decode_rounds c) Hn c [] CLI_BUFFER a Ha0 ZC U) as (t & cur & -> & L); [|exact Ha1|].
    + fold n. change (zlen (@nil Z)) with 0. change (2 ^ 40) with 1099511627776 in FB. change (2 ^ 62) with 4611686018427387904. lia.
    + rewrite (save_size _ _ _ _ _ Ha2). fold n in L. change (zlen (@nil Z)) with 0 in L. lia.
  - unfold decode_rounds in Ha1. cbn [adhoc_to_wav_loop] in Ha1. inv_bind Ha1. destruct a0 as [[c1 b1] r1].
    assert (r1 = None).
    { unfold ad_decode in Ha3. rewrite Ha0 in Ha3. cbn [bind] in Ha3. fold n in Ha3. rewrite udiv_ok in Ha3 by lia. cbn [bind] in Ha3.
      change (zlen CLI_BUFFER) with 1024 in Ha3. rewrite (Z.div_small 1024 n) in Ha3 by lia. change (0 * n) with 0 in Ha3. cbn [decode_loop Z.ltb Z.compare bind] in Ha3.
      change (zlen (@nil f32)) with 0 in Ha3. cbn [Z.ltb Z.compare] in Ha3. congruence. }
    subst r1. assert (a = mkWav info (pcm_bytes []) (zlen (@nil Z))) by congruence. subst a. rewrite (save_size _ _ _ _ _ Ha2). change (zlen (@nil Z)) with 0. lia.
Qed.
Print Assumptions C84_tool.
(** The tool does write that much. *)
Theorem C84_tool_reached : forall info F,
  info_fits info -> 0 < si_channels info <= 1024 -> 0 < F < 2 ^ 32 ->
  exists out, adhoc_to_wav Release (ad_save (bomb info F)) = Ok (Some out) /\ zlen out = 44 + 2 * most_samples (si_channels info) F.
Proof.
  intros info F HI Hn HF. unfold adhoc_to_wav. rewrite bomb_loads by (auto; lia). cbn [bind]. rewrite bomb_info. cbn [bind].
  set (n := si_channels info) in *. set (B := 65535 * rounded_up F n).
  assert (HB : n * B = most_samples n F) by (unfold most_samples; subst B; lia).
  pose proof (up_total F n ltac:(lia) ltac:(lia)) as UT.
  assert (UF : rounded_up F n <= F) by (unfold rounded_up; apply Z.div_le_upper_bound; [lia|]; clear - Hn HF; nia).
  change (wav_new info) with (mkWav info (pcm_bytes []) (zlen (@nil Z))).
  assert (DR : Z.of_nat (decode_rounds (loaded (bomb info F) info)) = 2 + 65538 * F).
  { unfold decode_rounds, loaded, bomb. cbn [ad_headers fhs_reset fhs_set_cursor fhs_sizes].
    assert (S : forall k, fold_right (fun size acc => size + 3 + acc) 0 (repeat 65535 k) = 65538 * Z.of_nat k) by (induction k as [|k IH]; cbn [repeat fold_right]; lia).
    rewrite S. lia. }
  destruct (tool_exact 0 info (decode_rounds (loaded (bomb info F) info)) Hn B (loaded (bomb info F) info) [] CLI_BUFFER eq_refl) as (t & cur & E & L).
  - apply bomb_filled; lia.
  - reflexivity.
  - rewrite DR. subst B. lia.
  - change (zlen (@nil Z)) with 0. fold n. rewrite HB. unfold most_samples. change (2 ^ 32) with 4294967296 in HF. change (2 ^ 62) with 4611686018427387904. lia.
  - rewrite E. cbn [bind]. destruct (save_release info t cur) as [out S]. rewrite S. cbn [bind]. exists out. split; [reflexivity|].
    rewrite (save_size _ _ _ _ _ S), L. fold n. change (zlen (@nil Z)) with 0. lia.
Qed.
Print Assumptions C84_tool_reached.
(** 133 bytes make the tool write 134 megabytes. *)
Corollary C84_tool_example : let file := ad_save (bomb (mkInfo 48000 1024) 1) in
  zlen file = 133 /\ exists out, adhoc_to_wav Release file = Ok (Some out) /\ zlen out = 134215724.
Proof.
  split; [reflexivity|]. destruct (C84_tool_reached (mkInfo 48000 1024) 1) as (out & E & L).
  - vm_compute. repeat split; try reflexivity; discriminate.
  - cbn. lia.
  - lia.
  - exists out. split; [exact E|]. rewrite L. reflexivity.
Qed.

(** ** WAV files *)
(** Loading a WAV file never yields more than two bytes for each byte of the file. *)
Theorem C84_wav : forall p file w, wav_load p file = Ok (Some w) -> zlen (wav_pcm w) <= 2 * (zlen file - 8).
Proof.
  intros p file w H. unfold wav_load in H. destruct (Z.ltb_spec (zlen file) 256) as [|HZ]; [discriminate|].
  destruct (find_tag (firstn 256 file) 0) as [st|] eqn:T; [|discriminate].
  assert (T0 : 0 <= st).
  { assert (G : forall l k s, find_tag l k = Some s -> k <= s); [|now apply G in T]. clear.
    induction l as [|a l IH]; intros k s E; [discriminate|]. cbn [find_tag] in E. destruct l as [|b [|c0 [|d l]]]; try discriminate.
    destruct (list_eqb [a; b; c0; d] TAG_DATA); [injection E as <-; lia|]. apply IH in E. lia. }
  do 5 inv_bind H. destruct (negb _ && negb _); [discriminate|]. destruct (negb _); [discriminate|]. inv_bind H.
  assert (R : zlen (skipn (Z.to_nat (st + 8)) file) <= zlen file - 8) by (unfold zlen in *; rewrite skipn_length; lia).
  assert (E : zlen (wav_pcm w) = zlen a4) by (apply (f_equal (fun o => match o with Ok (Some v) => zlen (wav_pcm v) | _ => 0 end)) in H; cbv beta iota in H; rewrite <- H; reflexivity).
  rewrite E. destruct (_ =? 8).
  - rewrite expand_ok in Ha4. assert (a4 = pcm_bytes (map expand8 (skipn (Z.to_nat (st + 8)) file))) as -> by congruence. rewrite zlen_pcm, zlen_map. lia.
  - assert (a4 = skipn (Z.to_nat (st + 8)) file) as -> by congruence. pose proof (zlen_nonneg (skipn (Z.to_nat (st + 8)) file)). lia.
Qed.
Print Assumptions C84_wav.
