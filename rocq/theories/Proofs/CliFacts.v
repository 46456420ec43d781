(** * The command line conversions *)
From Coq Require Import ZArith List Bool Lia.
From Verif Require Import Model.Base Model.F32 Model.Sample Model.BitStream Model.NibbleList Model.BitVec Model.CircularStack
  Model.Frame Model.Adhoc Model.Bincode Model.Wav Model.Cli Spec.Bits Spec.Codec Spec.Recording Spec.Frames Spec.Files Spec.Wave
  Proofs.BaseFacts Proofs.BitStreamFacts Proofs.BitLog Proofs.Containers Proofs.Headers Proofs.FrameFacts Proofs.EncodeFacts Proofs.DecodeFacts
  Proofs.RoundTrip Proofs.WavFacts Proofs.Chunks Properties.CallProps Properties.FileProps Properties.WavProps.
Import ListNotations.
Open Scope Z_scope.

(** ** Pieces of a fixed size *)
Fixpoint cut {A} (fuel n : nat) (l : list A) : list (list A) :=
  match fuel with
  | O => []
  | S fuel => match l with [] => [] | _ => firstn n l :: cut fuel n (skipn n l) end
  end.
Lemma cut_nil {A} fuel n : cut fuel n (@nil A) = [].
Proof. now destruct fuel. Qed.
Lemma cut_concat {A} fuel n : (1 <= n)%nat -> forall l : list A, (length l <= fuel)%nat -> concat (cut fuel n l) = l.
Proof.
  intros Hn. induction fuel as [|fuel IH]; intros l Hl; cbn [cut].
  - destruct l; [reflexivity|cbn in Hl; lia].
  - destruct l as [|x l]; [reflexivity|]. cbn [concat]. rewrite IH; [apply firstn_skipn|]. rewrite skipn_length. cbn [length] in *. lia.
Qed.
(** All pieces but the last are full. *)
Lemma cut_full {A} fuel n : (1 <= n)%nat -> forall (l : list A) a x b, cut fuel n l = a ++ x :: b -> b <> [] -> length x = n.
Proof.
  intros Hn. induction fuel as [|fuel IH]; intros l a x b H Hb; cbn [cut] in H; [destruct a; discriminate|].
  destruct l as [|y l]; [destruct a; discriminate|]. destruct a as [|z a]; cbn [app] in H.
  - injection H as <- H. rewrite firstn_length. destruct (Nat.le_gt_cases n (length (y :: l))) as [L|L]; [lia|].
    exfalso. apply Hb. rewrite <- H, skipn_all2 by lia. apply cut_nil.
  - injection H as _ H. eapply IH; eauto.
Qed.
Lemma cut_len {A} fuel n (l : list A) : Forall (fun x => (length x <= n)%nat) (cut fuel n l).
Proof.
  revert l. induction fuel as [|fuel IH]; intros l; cbn [cut]; [constructor|]. destruct l; [constructor|].
  constructor; [rewrite firstn_length; lia|apply IH].
Qed.
Lemma cut_count {A} fuel n : (1 <= n)%nat -> forall l : list A, (length (cut fuel n l) * n <= length l + n)%nat.
Proof.
  intros Hn. induction fuel as [|fuel IH]; intros l; cbn [cut length]; [lia|]. destruct l as [|y l]; cbn [length]; [lia|].
  specialize (IH (skipn n (y :: l))). rewrite skipn_length in IH. cbn [length] in IH.
  destruct (Nat.le_gt_cases n (S (length l))); [lia|].
  replace (skipn n (y :: l)) with (@nil A) by (symmetry; apply skipn_all2; cbn [length]; lia). rewrite cut_nil. cbn [length]. lia.
Qed.
(** Pieces of whole blocks keep the blocks. *)
Lemma cut_whole ch k fuel : 0 < ch -> 0 < k -> forall l, (length l <= fuel)%nat ->
  flat_map (whole ch) (cut fuel (Z.to_nat (ch * k)) l) = whole ch l.
Proof.
  intros Hc Hk. assert (Hn : 0 < ch * k) by nia. set (n := Z.to_nat (ch * k)).
  induction fuel as [|fuel IH]; intros l Hl; cbn [cut].
  - destruct l; [|cbn in Hl; lia]. now rewrite whole_nil.
  - destruct l as [|x l]; [now rewrite whole_nil|]. cbn [flat_map]. rewrite IH by (rewrite skipn_length; cbn [length] in *; lia).
    destruct (Nat.le_gt_cases n (length (x :: l))) as [L|L].
    + assert (E : zlen (firstn n (x :: l)) = ch * k) by (rewrite zlen_firstn; unfold zlen; lia).
      rewrite (whole_all ch _ k Hc E), <- (whole_app ch _ _ k Hc E), firstn_skipn. reflexivity.
    + rewrite firstn_all2, skipn_all2, whole_nil, app_nil_r by lia. reflexivity.
Qed.
Lemma total_blocks_whole ch pcms : 0 < ch -> ch * total_blocks ch pcms = zlen (flat_map (whole ch) pcms).
Proof.
  intros Hc. unfold total_blocks. induction pcms as [|x pcms IH]; cbn [map fold_right flat_map]; [cbn; lia|].
  rewrite zlen_app, whole_len, <- IH by exact Hc. lia.
Qed.

(** ** From WAV to the codec *)
(** The samples one round moves. *)
Definition chunk (ch : Z) : Z := ch * (1024 / ch).
Lemma chunk_range ch : 1 <= ch <= 341 -> 3 * ch <= chunk ch <= 1024.
Proof.
  intros H. unfold chunk. pose proof (Z.mul_div_le 1024 ch ltac:(lia)).
  assert (3 <= 1024 / ch) by (apply Z.div_le_lower_bound; lia). nia.
Qed.
Lemma chunk_pos ch : 1 <= ch <= 1024 -> 1 <= chunk ch <= 1024 /\ 0 < 1024 / ch.
Proof.
  intros H. unfold chunk. pose proof (Z.mul_div_le 1024 ch ltac:(lia)).
  assert (1 <= 1024 / ch) by (apply Z.div_le_lower_bound; lia). nia.
Qed.

Lemma wav_loop p info t odd : let ch := si_channels info in
  1 <= ch <= 1024 -> Forall is_i16 t -> (length odd <= 1)%nat ->
  forall fuel c cur buf, zlen buf = 1024 -> 0 <= cur <= zlen t -> zlen t - cur < Z.of_nat fuel ->
  wav_to_adhoc_loop p fuel (mkWav info (pcm_bytes t ++ odd) cur) c buf
  = encode_all p c (cut fuel (Z.to_nat (chunk ch)) (skipn (Z.to_nat cur) (map restore t))).
Proof.
  intros ch Hch Ht Ho. destruct (chunk_pos ch Hch) as [HB HB1]. induction fuel as [|fuel IH]; intros c cur buf Hb Hc Hf; [lia|].
  cbn [wav_to_adhoc_loop]. destruct (decode_ok info t odd cur buf ltac:(lia) Hc Ht Ho) as (n & Hn & En & E & R). fold ch in En, E, R.
  set (rest := skipn (Z.to_nat cur) (map restore t)) in *. rewrite E. cbn [bind].
  assert (Lr : zlen rest = zlen t - cur) by (subst rest; rewrite zlen_skipn, zlen_map; lia).
  assert (Lb : zlen (fst (snd (fill ch rest buf))) = 1024).
  { unfold fill. cbn [fst snd]. rewrite Hb. fold (chunk ch). rewrite zlen_app, zlen_firstn, zlen_skipn, Hb. lia. }
  rewrite Hb in En. fold (chunk ch) in En.
  unfold fill in E, R, Lb |- *. cbn [fst snd] in *. rewrite Hb in *. fold (chunk ch) in *. rewrite <- En in *.
  destruct (Z.eqb_spec n 0) as [->|Nn].
  - assert (rest = []) as ->; [|cbn [cut]; reflexivity]. destruct rest; [reflexivity|]. rewrite zlen_cons in *. pose proof (zlen_nonneg rest). lia.
  - cbn [bind]. destruct rest as [|x rest0] eqn:ER; [change (zlen (@nil f32)) with 0 in *; lia|]. rewrite <- ER in *.
    assert (EC : cut (S fuel) (Z.to_nat (chunk ch)) rest = firstn (Z.to_nat (chunk ch)) rest :: cut fuel (Z.to_nat (chunk ch)) (skipn (Z.to_nat (chunk ch)) rest)) by (rewrite ER; reflexivity).
    rewrite EC. cbn [encode_all foldM]. unfold encode_all. cbn [foldM].
    assert (F1 : firstn (Z.to_nat n) (firstn (Z.to_nat n) rest ++ skipn (Z.to_nat n) buf) = firstn (Z.to_nat (chunk ch)) rest).
    { assert (L1 : length (firstn (Z.to_nat n) rest) = Z.to_nat n) by (rewrite firstn_length; unfold zlen in *; lia).
      rewrite firstn_app, L1, Nat.sub_diag, firstn_firstn, Nat.min_id. cbn [firstn]. rewrite app_nil_r.
      destruct (Z.le_gt_cases (chunk ch) (zlen rest)); [do 2 f_equal; lia|]. rewrite !firstn_all2; auto; unfold zlen in *; lia. }
    rewrite F1. destruct (ad_encode p c (firstn (Z.to_nat (chunk ch)) rest)) as [[c' k]| |]; cbn [bind]; auto.
    rewrite IH by (auto; lia). unfold encode_all. do 2 f_equal. subst n. rewrite R.
    destruct (Z.le_gt_cases (chunk ch) (zlen rest)); [do 2 f_equal; lia|]. rewrite !skipn_all2; auto; unfold zlen in *; lia.
Qed.

(** The pieces form a recording the codec can take. *)
Lemma cut_recording ch t fuel : 1 <= ch <= 341 -> 3 * ch <= zlen t < 2 ^ 31 -> zlen t <= Z.of_nat fuel ->
  recording_ok ch (cut fuel (Z.to_nat (chunk ch)) t) /\ no_long_gap ch (cut fuel (Z.to_nat (chunk ch)) t).
Proof.
  intros Hch Ht Hf. pose proof (chunk_range ch Hch) as HB. set (n := Z.to_nat (chunk ch)).
  assert (Hn : (1 <= n)%nat) by (subst n; lia). split.
  - split; [lia|]. split; [|split; [|split]].
    + destruct fuel as [|fuel]; cbn [cut]; auto. destruct t as [|x t]; auto. rewrite zlen_firstn. subst n. lia.
    + eapply Forall_impl; [|apply cut_len]. cbv beta. intros x Hx. unfold zlen. subst n. lia.
    + pose proof (cut_count fuel n Hn t) as C. unfold zlen in *. set (m := length (cut fuel n t)) in *. clearbody m. subst n. nia.
    + rewrite cut_concat by (auto; unfold zlen in *; lia). lia.
  - intros a b c E HF H9. exfalso. destruct b as [|x [|y b]]; cbn [length] in H9; try lia.
    inversion HF as [|? ? Hx _]; subst.
    assert (length x = n) by (eapply (cut_full fuel n Hn t a x ((y :: b) ++ c)); [exact E|discriminate]).
    unfold zlen in Hx. subst n. lia.
Qed.

(** The conversion sets the format after the level. *)
Lemma cli_codec info level : ad_set_info (ad_with_level ad_new level) info = new_codec info level.
Proof. reflexivity. Qed.

(** ** An encoded recording fits in memory *)
Lemma encoded_in_memory p info level pcms c1 : recording_ok (si_channels info) pcms ->
  encode_all p (new_codec info level) pcms = Ok c1 -> in_memory c1.
Proof.
  intros HR E. pose proof (encoded_safe p info level pcms c1 HR E) as HS.
  destruct (encode_recording p info level pcms HR HS) as (c1' & E' & _ & R & HM & _). rewrite E in E'. injection E' as <-.
  destruct R as [_ _ _ _ HB [HH _] _]. destruct HM as (_ & _ & B & F).
  set (fs := concat _) in *. clearbody fs. unfold bits_of in B.
  destruct HH as (_ & (_ & _ & N & _) & (_ & _ & _ & V & _) & S1 & S2 & S3).
  assert (L : zlen (headers_of 0 fs) = zlen fs) by apply zlen_headers_of.
  rewrite zlen_map in N. rewrite L in N, V. pose proof (zlen_nonneg fs).
  unfold in_memory. cbv zeta. rewrite N, V, S1, S2, S3, !zlen_map, L.
  assert ((zlen fs + 1) / 2 <= zlen fs + 1) by (apply Z.div_le_upper_bound; lia).
  assert ((zlen fs + 63) / 64 <= zlen fs + 63) by (apply Z.div_le_upper_bound; lia).
  change (2 ^ 32) with 4294967296 in *. change (2 ^ 64) with 18446744073709551616 in *.
  repeat (split; [lia|]). destruct HB as (_ & _ & _ & _ & HB).
  assert (zlen (flat_map fr_bits fs) / 128 <= 18446744073709551616 / 128) by (apply Z.div_le_mono; lia).
  change (18446744073709551616 / 128) with 144115188075855872 in *. lia.
Qed.

Lemma session_of_encode p pcms c c1 : encode_all p c pcms = Ok c1 -> session p (map Feed pcms) c = Ok c1.
Proof.
  intros <-. unfold session, encode_all. revert c. induction pcms as [|x l IH]; intros c; cbn [map foldM]; auto.
  cbn [act]. destruct (ad_encode p c x) as [[? ?]| |]; cbn [bind]; auto.
Qed.

(** ** The loaded file plays the recording *)
Lemma loaded_playing p r info level pcms c1 : let ch := si_channels info in
  0 <= level -> info_fits info -> recording_ok ch pcms -> encode_all p (new_codec info level) pcms = Ok c1 ->
  safe_build r (inv_gain level) ch pcms ->
  exists c2, ad_load r (ad_save c1) = Ok (Some c2) /\ ad_info c2 = Ok info /\
    playing r c2 info level pcms 0 (Z.to_nat (audible ch 0 pcms)) /\
    (Z.to_nat (total_blocks ch pcms) < decode_rounds c2)%nat.
Proof.
  intros ch Hl HI HR E HS'. pose proof (encoded_safe p info level pcms c1 HR E) as HS.
  destruct (encode_recording p info level pcms HR HS) as (c1' & E' & S & R & HM & _). rewrite E in E'. injection E' as <-.
  pose proof HS' as HS2. rewrite <- (new_codec_inv info level Hl) in HS2.
  destruct (encode_recording r info level pcms HR HS2) as (_ & _ & _ & _ & _ & HO).
  pose proof (recording_recorded r info level pcms c1 HR HM HO) as HRec.
  rewrite (new_codec_inv info level Hl) in *. fold ch in R, HM, HO, HRec.
  pose proof (session_fits p info level (map Feed pcms) c1 HI (session_of_encode _ _ _ _ E) (encoded_in_memory _ _ _ _ _ HR E)) as HF.
  destruct S as (Sl & Ss & _ & Si). assert (Hi : as_info (ad_stream c1) = Some info) by (rewrite Si; reflexivity).
  assert (Lv : ad_level c1 = Z.min level 10) by (rewrite Sl; cbn [new_codec ad_with_level ad_level]; rewrite zclamp_eq by lia; lia).
  pose proof (load_spec r c1 info [] HF Hi ltac:(lia)) as EL. rewrite app_nil_r in EL.
  eexists. split; [exact EL|]. split; [reflexivity|].
  pose proof (frames_sizes (inv_gain level) ch pcms HR) as FS.
  pose proof (frames_reach (inv_gain level) ch pcms 0 HR) as HRe. pose proof (recording_chunks ch pcms HR) as HC.
  destruct R as [_ _ _ _ HB [HH _] _]. destruct HR as (Hch & H3 & Hn & _). split.
  - set (c1m := mkAdhoc (ad_headers c1) (repeat fc_new (Z.to_nat ch)) (mkAS (Some info) (as_stream (ad_stream c1))) (ad_level c1)
      (f32_of_Z (2 ^ ad_level c1)) (fdiv f1 (f32_of_Z (2 ^ ad_level c1))) 314).
    assert (EI : ad_init c1m = mkAdhoc (fhs_reset (ad_headers c1)) (repeat fc_new (Z.to_nat (si_channels info)))
      (mkAS (Some info) (bs_seek_start (as_stream (ad_stream c1)))) (ad_level c1) (f32_of_Z (2 ^ ad_level c1)) (fdiv f1 (f32_of_Z (2 ^ ad_level c1))) 314).
    { unfold ad_init, c1m. cbn [ad_headers ad_channels ad_stream ad_level ad_scale ad_inv_scale ad_seq as_info as_stream]. f_equal.
      fold ch. generalize (Z.to_nat ch). induction n; cbn [repeat map]; f_equal; auto. }
    rewrite <- EI.
    assert (HD : decoding r (ad_init c1m) info (bs_binary (as_stream (ad_stream c1))) (frames_of (inv_gain level) ch pcms)
      (full_output ch (frames_of (inv_gain level) ch pcms)) (Z.to_nat (reach_run 0 (frames_of (inv_gain level) ch pcms)))).
    { apply init_decoding; auto; subst c1m; cbn [ad_channels ad_stream as_stream].
      - rewrite zlen_repeat. fold ch. lia.
      - apply Forall_forall. intros fc Hfc. apply repeat_spec in Hfc. subst fc. apply hist_any_new.
      - apply HB.
      - apply ext_refl. }
    destruct (output_len r (inv_gain level) ch pcms Hch H3 HO) as [L HL].
    exists (bs_binary (as_stream (ad_stream c1))), (frames_of (inv_gain level) ch pcms). fold ch.
    rewrite map_skipn_0. rewrite HRe in HD.
    split; [exact HD|]. split; [exact HRec|]. split; [|split; [exact HL|split; [exact HRe|split]]].
    + apply (output_lossy r); auto.
    + apply total_blocks_nonneg; auto.
    + unfold c1m, gain. cbn [ad_init ad_scale]. now rewrite Lv.
  - unfold decode_rounds. cbn [ad_headers]. destruct HH as (_ & _ & _ & S1 & _).
    change (fhs_sizes (fhs_reset (ad_headers c1))) with (fhs_sizes (ad_headers c1)). rewrite S1.
    assert (G : forall rows pos, Forall2 (fun row pcm => row_n row = zlen pcm / ch) rows pcms ->
      total_blocks ch pcms <= fold_right (fun size acc => size + 3 + acc) 0 (map fh_size (headers_of pos (concat rows)))).
    { clear - HC Hch. intros rows pos H. revert pos HC. unfold total_blocks.
      assert (P : forall l pos, 0 <= fold_right (fun size acc => size + 3 + acc) 0 (map fh_size (headers_of pos l))).
      { induction l as [|f l IH]; intros pos; cbn [headers_of map fold_right header_of fh_size]; [lia|].
        specialize (IH (pos + zlen (fr_bits f))). pose proof (uwrap_range 16 (fr_size f) ltac:(lia)). lia. }
      assert (Q : forall a b, fold_right (fun size acc => size + 3 + acc) 0 (a ++ b)
        = fold_right (fun size acc => size + 3 + acc) 0 a + fold_right (fun size acc => size + 3 + acc) 0 b).
      { induction a as [|x a IH]; intros b; cbn [app fold_right]; [lia|]. rewrite IH. lia. }
      induction H as [|row pcm rows pcms' E H IH]; intros pos HC; cbn [map fold_right concat]; [cbn; lia|].
      inversion HC as [|? ? Hp HC']; subst. rewrite headers_of_app, map_app, Q.
      specialize (IH (pos + zlen (flat_map fr_bits row)) HC').
      enough (zlen pcm / ch <= fold_right (fun size acc => size + 3 + acc) 0 (map fh_size (headers_of pos row))) by lia.
      rewrite <- E in *. destruct row as [|f row]; cbn [row_n headers_of map fold_right header_of fh_size] in *; [lia|].
      specialize (P row (pos + zlen (fr_bits f))). assert (0 <= fr_size f) by (unfold fr_size; pose proof (zlen_nonneg (fr_raw f)); pose proof (zlen_nonneg (fr_res f)); lia).
      rewrite uwrap_small by (change (2 ^ 16) with 65536; lia). lia. }
    specialize (G _ 0 FS). lia.
Qed.

(** ** From the codec to WAV *)
Lemma adhoc_loop r info level pcms : let ch := si_channels info in let T := Z.to_nat (total_blocks ch pcms) in
  1 <= ch <= 1024 -> ch * total_blocks ch pcms < 2 ^ 62 ->
  forall fuel c done track buf, zlen buf = 1024 -> playing r c info level pcms done (T - done) -> (T - done < fuel)%nat ->
  zlen track <= 2 ^ 62 - Z.of_nat (Z.to_nat ch * (T - done)) ->
  exists cur, adhoc_to_wav_loop r fuel c (mkWav info (pcm_bytes track) (zlen track)) buf
  = Ok (mkWav info (pcm_bytes (track ++ map quantise (skipn (Z.to_nat ch * done) (lossy_signal level ch pcms)))) cur).
Proof.
  intros ch T Hch HT. destruct (chunk_pos ch Hch) as [HB HB1].
  assert (LS : length (lossy_signal level ch pcms) = (T * Z.to_nat ch)%nat).
  { unfold lossy_signal, output_of. rewrite interleave_len, map_length, length_range. reflexivity. }
  induction fuel as [|fuel IH]; intros c done track buf Hb HP Hf Ht; [lia|].
  cbn [adhoc_to_wav_loop].
  destruct (playing_call r c info level pcms done (T - done) buf HP) as (c' & buf' & R' & E & F & _).
  destruct (playing_decode r c info level pcms done (T - done) [buf] HP ltac:(right; reflexivity)) as (c'' & rs & E2 & _ & HP').
  fold ch in E, F, HP'. rewrite E. cbn [bind].
  assert (EB : blocks_of (Z.to_nat ch) [buf] = (length buf / Z.to_nat ch)%nat) by (unfold blocks_of; cbn [map fold_right]; lia).
  rewrite EB in HP'. set (k := Nat.min (length buf / Z.to_nat ch) (T - done)) in *.
  assert (c'' = c').
  { cbn [decode_all] in E2. rewrite E in E2. cbn [bind] in E2. congruence. }
  subst c''.
  assert (Hbk : (length buf / Z.to_nat ch >= 1)%nat).
  { apply Nat.div_le_lower_bound; [lia|]. unfold zlen in Hb. lia. }
  destruct (Nat.ltb_spec 0 k) as [Hk|Hk].
  - assert (L1 : zlen (firstn (Z.to_nat (ch * Z.of_nat k)) buf') = ch * Z.of_nat k).
    { rewrite F, zlen_firstn, zlen_skipn. unfold zlen. rewrite LS. subst k. nia. }
    assert (Hkd : (k <= T - done)%nat) by (subst k; lia).
    pose proof (encode_ok r info track (zlen track) (firstn (Z.to_nat (ch * Z.of_nat k)) buf')) as EO. cbv zeta in EO. fold ch in EO.
    rewrite EO; [|lia|pose proof (zlen_nonneg track); lia|rewrite L1; nia]. clear EO. cbn [bind].
    rewrite (whole_all ch _ (Z.of_nat k)) by (auto; lia).
    replace (Z.to_nat (zlen track)) with (length track) by (unfold zlen; lia). rewrite overwrite_at_end, F.
    set (piece := firstn (Z.to_nat (ch * Z.of_nat k)) (skipn (Z.to_nat ch * done) (lossy_signal level ch pcms))) in *.
    replace (zlen track + zlen piece) with (zlen (track ++ map quantise piece)) by (rewrite zlen_app, zlen_map; reflexivity).
    replace (T - done - k)%nat with (T - (done + k))%nat in HP' by lia.
    assert (Lb' : zlen buf' = 1024).
    { destruct HP as (m & rows & (HI & _) & _). destruct (C08_whole_blocks r c info buf c' buf' _ HI ltac:(lia) E) as [L8 _]. lia. }
    destruct (IH c' (done + k)%nat (track ++ map quantise piece) buf' Lb' HP' ltac:(lia)) as (cur & EI).
    { rewrite zlen_app, zlen_map. rewrite F in L1. rewrite L1. nia. }
    exists cur. rewrite EI. do 3 f_equal. rewrite <- app_assoc, <- map_app. do 2 f_equal.
    rewrite <- (firstn_skipn (Z.to_nat (ch * Z.of_nat k)) (skipn (Z.to_nat ch * done) (lossy_signal level ch pcms))).
    f_equal. rewrite skipn_plus. f_equal. nia.
  - exists (zlen track). do 3 f_equal. rewrite skipn_all2 by (rewrite LS; subst k; nia). cbn [map]. now rewrite app_nil_r.
Qed.
