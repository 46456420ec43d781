(** * Which .adhoc files the command line tool converts, and how long the result is *)
From Coq Require Import ZArith List Bool Lia.
From Verif Require Import Model.Base Model.F32 Model.Sample Model.BitStream Model.NibbleList Model.BitVec Model.Frame Model.Adhoc Model.Bincode
  Model.Wav Model.Cli Model.Steps Spec.Bombs Spec.Wave Spec.Recording Spec.Files Spec.Damage Spec.Speed
  Proofs.BaseFacts Proofs.AnyState Proofs.DecodeFacts Proofs.DamageFacts Proofs.DamageFile Proofs.DamageRecording Proofs.Terminates Proofs.FileFacts
  Proofs.WavFile Proofs.WavFacts Proofs.BombFacts Proofs.BombTool Spec.Tables Proofs.TableFacts Proofs.TableTool
  Properties.DamageProps Properties.FileProps Properties.TerminationProps Properties.SpeedProps Properties.BombProps.
Import ListNotations.
Open Scope Z_scope.

(** ** The codec a file gives *)
Lemma loads_at file c info : Forall byte file -> zlen file < 2 ^ 40 -> ad_load Release file = Ok (Some c) -> ad_info c = Ok info ->
  let n := si_channels info in let h := ad_headers c in 0 < n ->
  let m := Z.min (fhs_len h) (entries h) in let ps := played_by h n (reach n m h) in
  (no_nine_empty ps -> exists L, at_blocks L n m (total ps) (codec_state c)) /\
  0 <= total ps /\ total ps < Z.of_nat (decode_rounds c) /\ n * total ps < 2 ^ 60.
Proof.
  intros HB HZ HL HI n h Hn m ps.
  destruct (loads_table _ _ _ _ HB HL HI) as (U & _ & ZC & P0 & _ & RD & F0).
  destruct (load_shape _ _ _ HL) as (lvl & h0 & s & r & sc & info' & G & Hi & EC).
  assert (info' = info) by (subst c; unfold ad_info, ad_init in HI; cbn [ad_stream as_info] in HI; rewrite Hi in HI; now injection HI). subst info'.
  destruct (get_codec_types _ _ _ _ _ HB G) as (T1 & T2 & T3 & T4 & T5). specialize (T5 _ Hi).
  assert (HH : h = fhs_reset h0) by (subst h c; reflexivity).
  assert (ES : fhs_sizes h = fhs_sizes h0) by (rewrite HH; reflexivity). assert (EL : fhs_len h = fhs_len h0) by (rewrite HH; reflexivity).
  assert (C0 : fhs_cursor h = 0) by (rewrite HH; reflexivity). assert (EE : entries h = entries h0) by (rewrite HH; reflexivity).
  change (nl_count (fhs_exps h0)) with (fhs_len h0) in T1. rewrite <- EL in T1.
  assert (E0 : 0 <= entries h) by (unfold entries; pose proof (zlen_nonneg (fhs_sizes h)); pose proof (zlen_nonneg (fhs_cursors h)); pose proof (zlen_nonneg (fhs_hists h)); lia).
  assert (M0 : 0 <= m) by (unfold m; lia).
  assert (NN : Forall (fun x => 0 <= x) (fhs_sizes h)) by (rewrite ES; eapply Forall_impl; [|exact T2]; cbn; intros; lia).
  pose proof (reach_le n m h Hn M0) as HK.
  assert (NF : Forall (fun x => 0 <= x) (firstn (Z.to_nat (reach n m h)) (fhs_sizes h))) by (rewrite <- (firstn_skipn (Z.to_nat (reach n m h)) (fhs_sizes h)) in NN; apply Forall_app in NN; apply NN).
  destruct (turns_total n Hn _ _ true (le_n _) NF) as [PN PT]. fold (played_by h n (reach n m h)) in PN, PT. fold ps in PN, PT.
  pose proof (sum_firstn (Z.to_nat (reach n m h)) _ NN) as SF.
  split.
  - intros HN. set (c0 := mkAdhoc (cut_table m h0) (repeat fc_new (Z.to_nat n)) s lvl (f32_of_Z sc) (fdiv f1 (f32_of_Z sc)) 314).
    assert (GD : good (zlen (bs_binary (as_stream s))) (codec_state_of (loaded c0 info))).
    { apply loaded_good; auto.
      - split; [exact M0|]. unfold table_len. cbn [c0 ad_headers cut_table fhs_sizes fhs_cursors fhs_hists]. change (fhs_len (cut_table m h0)) with m.
        unfold entries in EE, m. lia.
      - change (fhs_len (ad_headers c0)) with m. lia.
      - change (2 ^ 56) with 72057594037927936. change (2 ^ 40) with 1099511627776 in HZ. lia. }
    assert (EQ : codec_state_of (loaded c0 info) = cut_state m (codec_state c)).
    { subst c. unfold codec_state_of, codec_state, loaded, ad_init, cut_state. cbn [ad_channels ad_stream as_stream ad_headers c0]. rewrite map_init_new. reflexivity. }
    rewrite EQ in GD. exists (zlen (bs_binary (as_stream s))), ps. split; [|split; [exact HN|split; [exact PN|]]].
    2: { unfold codec_state, channels_of. cbn [fst]. lia. }
    assert (SD : snd (codec_state c) = h) by reflexivity. constructor; rewrite ?SD.
    + exact GD.
    + exact ZC.
    + lia.
    + lia.
    + rewrite C0. lia.
    + rewrite C0. intros _. split; [apply Z.divide_0_r|]. cbn [Z.eqb]. unfold codec_state, channels_of. cbn [fst]. subst c. cbn [ad_init ad_channels].
      rewrite map_init_new. apply Forall_forall. intros x Hx. apply repeat_spec in Hx. subst x. reflexivity.
    + rewrite C0. change (Z.to_nat 0) with 0%nat. rewrite Z.sub_0_r. reflexivity.
  - split; [lia|]. split; [unfold decode_rounds; fold h; lia|].
    set (F := frames_that_fit (zlen file)) in *.
    assert (FB : F < 2 ^ 40) by (subst F; unfold frames_that_fit; apply Z.div_lt_upper_bound; [lia|]; change (2 ^ 40) with 1099511627776 in *; lia).
    assert (MF : m <= F) by (unfold readable in RD; fold h in RD; unfold m, entries; rewrite C0 in RD; lia).
    assert (FC : Forall (fun x => 0 <= x < 65536) (firstn (Z.to_nat (reach n m h)) (fhs_sizes h))).
    { rewrite <- ES in T2. rewrite <- (firstn_skipn (Z.to_nat (reach n m h)) (fhs_sizes h)) in T2. apply Forall_app in T2. apply T2. }
    pose proof (turns_cap n Hn _ _ true (le_n _) FC) as TC. fold (played_by h n (reach n m h)) in TC. fold ps in TC.
    assert (ZK : zlen (firstn (Z.to_nat (reach n m h)) (fhs_sizes h)) <= reach n m h) by (unfold zlen; rewrite firstn_length; lia).
    change (2 ^ 40) with 1099511627776 in *. change (2 ^ 60) with 1152921504606846976. change (2 ^ 32) with 4294967296 in T5. fold n in T5.
    destruct (_ =? 0); lia.
Qed.

(** ** C91: exactly which files are converted *)
(** A file that does not load is reported as such. *)
Theorem C91_not_loaded : forall p file, ad_load p file = Ok None -> adhoc_to_wav p file = Ok None.
Proof. intros p file H. unfold adhoc_to_wav. rewrite H. reflexivity. Qed.
Print Assumptions C91_not_loaded.
(** A file without channels stops the tool; one with more than 1024 becomes an empty WAV file. *)
Theorem C91_no_channels : forall p file c info,
  ad_load p file = Ok (Some c) -> ad_info c = Ok info -> si_channels info = 0 -> adhoc_to_wav p file = Panic DivisionByZero.
Proof.
  intros p file c info HL HI Hn. unfold adhoc_to_wav. rewrite HL. cbn [bind]. rewrite HI. cbn [bind]. unfold decode_rounds. cbn [adhoc_to_wav_loop].
  unfold ad_decode at 1. rewrite HI. cbn [bind]. rewrite Hn. reflexivity.
Qed.
Print Assumptions C91_no_channels.
Theorem C91_too_many_channels : forall file c info,
  ad_load Release file = Ok (Some c) -> ad_info c = Ok info -> 1024 < si_channels info ->
  exists out, adhoc_to_wav Release file = Ok (Some out) /\ zlen out = 44.
Proof.
  intros file c info HL HI Hn. unfold adhoc_to_wav. rewrite HL. cbn [bind]. rewrite HI. cbn [bind]. unfold decode_rounds. cbn [adhoc_to_wav_loop].
  assert (E : exists c' b', ad_decode Release c CLI_BUFFER = Ok (c', b', None)).
  { unfold ad_decode. rewrite HI. cbn [bind]. rewrite udiv_ok by lia. cbn [bind]. change (zlen CLI_BUFFER) with 1024. rewrite (Z.div_small 1024) by lia.
    change (0 * si_channels info) with 0. cbn [decode_loop Z.ltb Z.compare bind]. change (zlen (@nil f32)) with 0. cbn [Z.ltb Z.compare]. eexists _, _. reflexivity. }
  destruct E as (c' & b' & E). rewrite E. cbn [bind]. change (wav_new info) with (mkWav info (pcm_bytes []) 0).
  destruct (save_release info [] 0) as [out S]. rewrite S. cbn [bind]. exists out. split; [reflexivity|]. rewrite (save_size _ _ _ _ _ S). reflexivity.
Qed.
Print Assumptions C91_too_many_channels.
(** Otherwise a file whose three lists have an entry for each frame it claims is converted, whatever the
    entries and the compressed data are, and the result has exactly the length that the sizes say. *)
Theorem C91_converts : forall file c info,
  Forall byte file -> zlen file < 2 ^ 40 -> ad_load Release file = Ok (Some c) -> ad_info c = Ok info ->
  let n := si_channels info in let h := ad_headers c in
  0 < n <= 1024 -> whole_table h -> no_nine_empty (played_by h n (fhs_len h)) ->
  exists out, adhoc_to_wav Release file = Ok (Some out) /\ zlen out = 44 + 2 * (n * total (played_by h n (fhs_len h))).
Proof.
  intros file c info HB HZ HL HI n h Hn HW HN. destruct (loads_at file c info HB HZ HL HI ltac:(fold n; lia)) as (A & T0 & TR & TM). fold n h in A, T0, TR, TM.
  unfold whole_table in HW. rewrite Z.min_l in A, T0, TR, TM by lia. assert (ER : reach n (fhs_len h) h = fhs_len h) by (unfold reach; now rewrite Z.eqb_refl).
  rewrite ER in A, T0, TR, TM. destruct (A HN) as [L AB]. set (B := total _) in *. clearbody B.
  unfold adhoc_to_wav. rewrite HL. cbn [bind]. rewrite HI. cbn [bind]. change (wav_new info) with (mkWav info (pcm_bytes []) (zlen (@nil Z))).
  pose proof (tool_table L (fhs_len h) (fhs_len h) info (decode_rounds c) Hn B c [] CLI_BUFFER HI AB eq_refl eq_refl TR) as TT.
  rewrite Z.ltb_irrefl in TT. destruct TT as (t & cur & E & LT).
  { change (zlen (@nil Z)) with 0. fold n. change (2 ^ 62) with 4611686018427387904. change (2 ^ 60) with 1152921504606846976 in TM. lia. }
  rewrite E. cbn [bind]. destruct (save_release info t cur) as [out S]. rewrite S. cbn [bind]. exists out. split; [reflexivity|].
  rewrite (save_size _ _ _ _ _ S), LT. fold n. change (zlen (@nil Z)) with 0. lia.
Qed.
Print Assumptions C91_converts.
(** A file that claims a frame without an entry stops the tool, and nothing is written. *)
Theorem C91_breaks : forall file c info,
  Forall byte file -> zlen file < 2 ^ 40 -> ad_load Release file = Ok (Some c) -> ad_info c = Ok info ->
  let n := si_channels info in let h := ad_headers c in
  0 < n <= 1024 -> ~ whole_table h -> no_nine_empty (played_by h n (full_turns n (entries h))) ->
  adhoc_to_wav Release file = Panic IndexOutOfBounds.
Proof.
  intros file c info HB HZ HL HI n h Hn HW HN. destruct (loads_at file c info HB HZ HL HI ltac:(fold n; lia)) as (A & T0 & TR & TM). fold n h in A, T0, TR, TM.
  unfold whole_table in HW. rewrite Z.min_r in A, T0, TR, TM by lia.
  assert (ER : reach n (entries h) h = full_turns n (entries h)) by (unfold reach; destruct (Z.eqb_spec (entries h) (fhs_len h)); [lia|reflexivity]).
  rewrite ER in A, T0, TR, TM. destruct (A HN) as [L AB]. set (B := total _) in *. clearbody B.
  unfold adhoc_to_wav. rewrite HL. cbn [bind]. rewrite HI. cbn [bind]. change (wav_new info) with (mkWav info (pcm_bytes []) (zlen (@nil Z))).
  pose proof (tool_table L (entries h) (fhs_len h) info (decode_rounds c) Hn B c [] CLI_BUFFER HI AB eq_refl eq_refl TR) as TT.
  destruct (Z.ltb_spec (entries h) (fhs_len h)); [|lia]. rewrite TT; [reflexivity|].
  change (zlen (@nil Z)) with 0. fold n. change (2 ^ 62) with 4611686018427387904. change (2 ^ 60) with 1152921504606846976 in TM. lia.
Qed.
Print Assumptions C91_breaks.
(** So the tool writes a file exactly when these conditions hold. *)
Theorem C91_exactly : forall file c info,
  Forall byte file -> zlen file < 2 ^ 40 -> ad_load Release file = Ok (Some c) -> ad_info c = Ok info ->
  let n := si_channels info in let h := ad_headers c in
  no_nine_empty (played_by h n (if fhs_len h <=? entries h then fhs_len h else full_turns n (entries h))) ->
  ((exists out, adhoc_to_wav Release file = Ok (Some out)) <-> 1024 < n \/ (0 < n /\ whole_table h)).
Proof.
  intros file c info HB HZ HL HI n h HN. destruct (loads_table _ _ _ _ HB HL HI) as (_ & [N0 _] & _). fold n in N0. split.
  - intros [out H]. destruct (Z.eq_dec n 0) as [Q|Q]; [rewrite (C91_no_channels Release file c info HL HI Q) in H; discriminate|].
    destruct (Z.le_gt_cases n 1024) as [R|R]; [|now left]. right. split; [lia|]. unfold whole_table. destruct (Z.leb_spec (fhs_len h) (entries h)) as [W|W]; [exact W|].
    exfalso. rewrite (C91_breaks file c info HB HZ HL HI) in H; [discriminate|fold n; lia|fold h; unfold whole_table; lia|exact HN].
  - intros [H|[H W]].
    + destruct (C91_too_many_channels file c info HL HI H) as (out & E & _). now exists out.
    + destruct (Z.le_gt_cases n 1024) as [R|R].
      * unfold whole_table in W. destruct (Z.leb_spec (fhs_len h) (entries h)); [|lia].
        destruct (C91_converts file c info HB HZ HL HI) as (out & E & _); [fold n; lia|exact W|exact HN|]. now exists out.
      * destruct (C91_too_many_channels file c info HL HI R) as (out & E & _). now exists out.
Qed.
Print Assumptions C91_exactly.
(** A player gets from such a file, in all, the same number of samples, however its decode calls are sized. *)
Theorem C91_player : forall file c info bufs,
  Forall byte file -> zlen file < 2 ^ 40 -> ad_load Release file = Ok (Some c) -> ad_info c = Ok info ->
  let n := si_channels info in let h := ad_headers c in
  0 < n -> whole_table h -> no_nine_empty (played_by h n (fhs_len h)) ->
  exists c' rs, decode_all Release c bufs = Ok (c', rs) /\
    zlen (concat (map reported rs)) = n * Z.min (total (map (fun b => zlen b / n) bufs)) (total (played_by h n (fhs_len h))).
Proof.
  intros file c info bufs HB HZ HL HI n h Hn HW HN. destruct (loads_at file c info HB HZ HL HI ltac:(fold n; lia)) as (A & T0 & _ & _). fold n h in A, T0.
  unfold whole_table in HW. rewrite Z.min_l in A, T0 by lia. assert (ER : reach n (fhs_len h) h = fhs_len h) by (unfold reach; now rewrite Z.eqb_refl).
  rewrite ER in A, T0. destruct (A HN) as [L AB]. set (B := total (played_by _ _ _)) in *. clearbody B.
  assert (EN : fhs_len (ad_headers c) = fhs_len h) by reflexivity. revert EN AB HI. generalize (fhs_len h). clear - Hn T0. intros m EN AB HI.
  revert B T0 c EN AB HI. induction bufs as [|b bufs IH]; intros B T0 c EN AB HI; cbn [decode_all map].
  - exists c, []. split; [reflexivity|]. cbn. rewrite Z.min_l by lia. lia.
  - pose proof (decode_table L m B c info b HI Hn AB) as DT. cbv zeta in DT. fold n in DT. rewrite EN, Z.ltb_irrefl in DT. cbn [andb] in DT.
    destruct DT as (c1 & out & E & EI1 & F1 & Zb & N1). rewrite E. cbn [bind].
    assert (Q0 : 0 <= zlen b / n) by (apply Z.div_pos; [apply zlen_nonneg|lia]). pose proof (Z.mul_div_le (zlen b) n Hn) as QM.
    set (q := zlen b / n) in *. destruct (IH (B - Z.min q B) ltac:(lia) c1 ltac:(congruence) F1 EI1) as (c2 & rs & E2 & Z2). rewrite E2. cbn [bind].
    eexists _, _. split; [reflexivity|]. cbn [map concat]. rewrite zlen_app, Z2. unfold total. cbn [fold_right]. fold (total (map (fun b => zlen b / n) bufs)).
    set (T := total _). assert (TN : 0 <= T).
    { subst T. clear - Hn. induction bufs as [|x l I]; cbn; [lia|]. unfold total in I. pose proof (Z.div_pos (zlen x) n (zlen_nonneg x) Hn). lia. }
    assert (R1 : zlen (reported (out, if 0 <? n * Z.min q B then Some (n * Z.min q B) else None)) = n * Z.min q B).
    { unfold reported. cbn [fst snd]. destruct (Z.ltb_spec 0 (n * Z.min q B)) as [P|P].
      - assert (X : n * Z.min q B <= zlen out) by nia. unfold zlen in *. rewrite firstn_length. lia.
      - change (zlen (@nil f32)) with 0. nia. }
    rewrite R1. replace (Z.min (q + T) B) with (Z.min q B + Z.min T (B - Z.min q B)) by lia. lia.
Qed.
Print Assumptions C91_player.

(** *** A file of two channels and five frames *)
Definition with_table (info : stream_info) (claimed : Z) (sizes : list Z) : adhoc :=
  mkAdhoc (mkFHS (mkNL [] claimed) (mkBV [] 0) sizes (map (fun _ => 0) sizes) (map (fun _ => (0, 0, 0)) sizes) 0)
          [] (mkAS (Some info) (mkBS [] 0 0)) 0 f1 f1 0.
Lemma no_nine_short l : (length l < 9)%nat -> no_nine_empty l.
Proof. intros H a b E. apply (f_equal (@length Z)) in E. rewrite !app_length, repeat_length in E. lia. Qed.
Lemma with_table_fits info claimed sizes : info_fits info -> 0 <= claimed < 2 ^ 32 -> Forall (fun x => 0 <= x < 65536) sizes -> zlen sizes < 2 ^ 32 ->
  fits (with_table info claimed sizes).
Proof.
  intros [HR HC] HF HS HZ. assert (FR : forall {A} (P : A -> Prop) (x : A), P x -> Forall P (map (fun _ => x) sizes)).
  { intros A P x Hx. apply Forall_forall. intros y Hy. apply in_map_iff in Hy. destruct Hy as (? & <- & _). exact Hx. }
  change (2 ^ 32) with 4294967296 in *. unfold with_table. constructor; cbn [ad_level ad_headers ad_stream as_info as_stream bs_binary bs_cursor bs_capacity].
  - unfold in_range_u. lia.
  - constructor; cbn [fhs_exps fhs_inits fhs_sizes fhs_cursors fhs_hists fhs_cursor nl_data nl_count bv_binary bv_cursor]; auto;
      try (apply FR); rewrite ?zlen_map; unfold history_fits, is_i16, in_range_u; change (2 ^ 32) with 4294967296 in *; try (change (2 ^ 64) with 18446744073709551616); try lia.
    + change (zlen (@nil Z)) with 0. lia.
    + change (zlen (@nil Z)) with 0. lia.
  - intros i E. injection E as <-. split; assumption.
  - change (zlen (@nil Z)) with 0. lia.
  - constructor.
  - unfold in_range_u. lia.
  - unfold in_range_u. lia.
Qed.
Lemma with_table_loads info claimed sizes : info_fits info -> 0 <= claimed < 2 ^ 32 -> Forall (fun x => 0 <= x < 65536) sizes -> zlen sizes < 2 ^ 32 ->
  ad_load Release (ad_save (with_table info claimed sizes)) = Ok (Some (loaded (with_table info claimed sizes) info)).
Proof.
  intros H1 H2 H3 H4. rewrite <- (app_nil_r (ad_save _)). rewrite (load_spec Release (with_table info claimed sizes) info []); [reflexivity|now apply with_table_fits|reflexivity|cbn; lia].
Qed.
Lemma bytes_by_test l : forallb (fun b => (0 <=? b) && (b <? 256)) l = true -> Forall byte l.
Proof. intros H. rewrite forallb_forall in H. apply Forall_forall. intros x Hx. apply H in Hx. apply andb_true_iff in Hx. unfold byte. lia. Qed.
Example C91_applies : let file := ad_save (with_table (mkInfo 48000 2) 5 [1; 7; 0; 4; 6]) in
  (exists c, ad_load Release file = Ok (Some c) /\ ad_info c = Ok (mkInfo 48000 2) /\ whole_table (ad_headers c) /\
     played_by (ad_headers c) 2 (fhs_len (ad_headers c)) = [7; 4; 6] /\ no_nine_empty (played_by (ad_headers c) 2 (fhs_len (ad_headers c)))) /\
  exists out, adhoc_to_wav Release file = Ok (Some out) /\ zlen out = 44 + 2 * (2 * (7 + 4 + 6)).
Proof.
  intros file. set (t := with_table (mkInfo 48000 2) 5 [1; 7; 0; 4; 6]) in *. set (c := loaded t (mkInfo 48000 2)).
  assert (L : ad_load Release file = Ok (Some c)).
  { apply with_table_loads; [vm_compute; repeat split; try reflexivity; discriminate|lia|repeat constructor; lia|vm_compute; reflexivity]. }
  assert (W : whole_table (ad_headers c)) by (unfold whole_table; vm_compute; discriminate).
  assert (P : played_by (ad_headers c) 2 (fhs_len (ad_headers c)) = [7; 4; 6]) by (vm_compute; reflexivity).
  assert (N : no_nine_empty (played_by (ad_headers c) 2 (fhs_len (ad_headers c)))) by (rewrite P; apply no_nine_short; cbn; lia).
  split; [exists c; auto|].
  destruct (C91_converts file c (mkInfo 48000 2)) as (out & E & S);
    [apply bytes_by_test; vm_compute; reflexivity|vm_compute; reflexivity|exact L|reflexivity|cbn; lia|exact W|exact N|].
  exists out. split; [exact E|]. rewrite S. cbn [si_channels]. rewrite P. reflexivity.
Qed.
(** The same with a sixth frame claimed. *)
Example C91_breaks_applies : let file := ad_save (with_table (mkInfo 48000 2) 6 [1; 7; 0; 4; 6]) in adhoc_to_wav Release file = Panic IndexOutOfBounds.
Proof.
  intros file. set (t := with_table (mkInfo 48000 2) 6 [1; 7; 0; 4; 6]) in *. set (c := loaded t (mkInfo 48000 2)).
  assert (L : ad_load Release file = Ok (Some c)).
  { apply with_table_loads; [vm_compute; repeat split; try reflexivity; discriminate|lia|repeat constructor; lia|vm_compute; reflexivity]. }
  apply (C91_breaks file c (mkInfo 48000 2)); [apply bytes_by_test; vm_compute; reflexivity|vm_compute; reflexivity|exact L|reflexivity|cbn; lia| |].
  - unfold whole_table. vm_compute. intros H. apply H. reflexivity.
  - apply no_nine_short. vm_compute. lia.
Qed.
(** The condition on empty turns cannot be dropped: here 80 claimed frames have no entry, but twenty empty turns end the playback before. *)
Theorem C91_gap_refuted : let c := with_table (mkInfo 48000 1) 101 (5 :: repeat 0 20) in
  ~ whole_table (ad_headers c) /\ option_map (@zlen Z) (match adhoc_to_wav Release (ad_save c) with Ok o => o | _ => None end) = Some (44 + 2 * 5).
Proof. cbv zeta. split; [unfold whole_table; vm_compute; intros H; apply H; reflexivity|vm_compute; reflexivity]. Qed.
Print Assumptions C91_gap_refuted.
