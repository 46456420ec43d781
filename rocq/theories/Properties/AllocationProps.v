(** * Property C83: the number of memory allocations is logarithmic *)
From Coq Require Import ZArith List Bool Lia.
From Verif Require Import Model.Base Model.F32 Model.Sample Model.BitStream Model.NibbleList Model.BitVec Model.Frame Model.Adhoc Model.Wav
  Model.Allocs Spec.Codec Spec.Recording Spec.Frames Spec.Speed Spec.Allocation
  Proofs.BaseFacts Proofs.Containers Proofs.Headers Proofs.FrameLaws Proofs.AnyState Proofs.Terminates Proofs.Oversize Proofs.StepFacts
  Proofs.AllocFacts Proofs.AllocBounds Properties.Demo Properties.SpeedProps.
Import ListNotations.
Open Scope Z_scope.

(** The logging functions are the functions of the model: logging changes neither what they return nor when they panic. *)
Theorem C83_same_calls : forall p c pcm buf w,
  outcome_of (ad_encodeL p c pcm) = ad_encode p c pcm /\ outcome_of (ad_decodeL p c buf) = ad_decode p c buf /\
  outcome_of (wav_encodeL p w pcm) = wav_encode p w pcm.
Proof. intros. repeat split; [apply out_encode|apply out_decode|apply out_wav_encode]. Qed.
Print Assumptions C83_same_calls.

(** ** Nothing is missing from the logs *)
Lemma log_room {A} g caps (m : logged A) rs len get a v : doubling g -> (forall v, 0 <= caps v) -> covers len m get -> outcome_of m = Ok a ->
  len v <= caps v -> (forall n, In (v, n) (log m) -> In (v, n) rs) -> get a v <= capacities g caps rs v.
Proof.
  intros HG HC HV E HL HI. rewrite capacities_one. destruct (HV a E v) as [H|(n & H & Q)].
  - assert (MONO : forall ns cap, 0 <= cap -> cap <= finally (g v) cap ns).
    { clear -HG. induction ns as [|m ns IH]; intros cap HC; cbn [finally]; [lia|]. destruct (Z.leb_spec m cap); [auto|].
      destruct (HG v cap m ltac:(lia)). specialize (IH (g v cap m) ltac:(lia)). lia. }
    specialize (MONO (requests v rs) (caps v) (HC v)). lia.
  - assert (n <= finally (g v) (caps v) (requests v rs)); [|lia]. apply finally_enough; [exact (HG v)|apply HC|apply requests_in; auto].
Qed.
Lemma finally_app g cap l k : finally g cap (l ++ k) = finally g (finally g cap l) k.
Proof. revert cap; induction l as [|n l IH]; intros cap; [reflexivity|]. cbn [app finally]. destruct (_ <=? _); apply IH. Qed.
Lemma requests_app v l k : requests v (l ++ k) = requests v l ++ requests v k.
Proof. unfold requests. rewrite filter_app, map_app. reflexivity. Qed.
Lemma capacities_app g caps l k v : capacities g caps (l ++ k) v = capacities g (capacities g caps l) k v.
Proof. rewrite !capacities_one, requests_app, finally_app. reflexivity. Qed.
Lemma capacities_nonneg g caps rs v : doubling g -> (forall v, 0 <= caps v) -> 0 <= capacities g caps rs v.
Proof.
  intros HG HC. rewrite capacities_one. specialize (HC v). revert HC. generalize (caps v) (requests v rs). intros cap ns. revert cap.
  induction ns as [|m ns IH]; intros cap HC; cbn [finally]; [lia|]. destruct (Z.leb_spec m cap); [auto|]. destruct (HG v cap m ltac:(lia)). apply IH. lia.
Qed.
(** If the vectors have room for what they hold at the start, then they do at the end: every growth was asked for. *)
Theorem C83_room_decode : forall p g caps c bufs c' outs, doubling g -> (forall v, 0 <= caps v) -> decode_all p c bufs = Ok (c', outs) ->
  (forall v, length_of c v <= caps v) -> forall v, length_of c' v <= capacities g caps (decode_log p c bufs) v.
Proof.
  intros p g caps c bufs c' outs HG HC. revert caps c outs HC; induction bufs as [|buf bufs IH]; intros caps c outs HC E HL v; cbn [decode_all] in E.
  { injection E as <- _. apply HL. }
  cbn [decode_log]. inv_bind E. destruct a as [[c1 b1] r1]. inv_bind E. destruct a as [c2 rs]. injection E as <- _.
  rewrite capacities_app, Ha. apply (IH _ _ rs); [intros; now apply capacities_nonneg|exact Ha0|].
  intros u. apply (log_room g caps (ad_decodeL p c buf) _ (length_of c) (fun '(c', _, _) => length_of c') (c1, b1, r1)); auto; [apply covers_decode|now rewrite out_decode].
Qed.
Print Assumptions C83_room_decode.
Theorem C83_room_encode : forall p g caps c pcms c' info, doubling g -> (forall v, 0 <= caps v) -> ad_info c = Ok info -> encode_all p c pcms = Ok c' ->
  (forall t, length_of c (Table t) <= caps (Table t)) -> forall t, length_of c' (Table t) <= capacities g caps (encode_log p c pcms) (Table t).
Proof.
  intros p g caps c pcms c' info HG HC. revert caps c HC; induction pcms as [|pcm pcms IH]; intros caps c HC EI E HL t; unfold encode_all in E; cbn [foldM] in E.
  { injection E as <-. apply HL. }
  cbn [encode_log]. inv_bind E. inv_bind Ha. destruct a0 as [c1 r1]. injection Ha as <-. rewrite capacities_app, Ha0.
  apply IH; [intros; now apply capacities_nonneg|rewrite (encode_keeps_info _ _ _ _ _ Ha0); exact EI|exact E|].
  intros u. destruct (grows_encode (fun _ _ => True) p c pcm info EI I (c1, r1) ltac:(now rewrite out_encode)) as [G _]. destruct (G u) as [_ Q].
  assert (EQ : forall c u, length_of c (Table u) = entries c u) by (intros ? []; reflexivity). specialize (HL u). rewrite EQ in *.
  rewrite capacities_one. destruct Q as [Q|Q].
  - rewrite Q. eapply Z.le_trans; [exact HL|]. pose proof (log_room g caps (log (ad_encodeL p c pcm), Ok tt) (log (ad_encodeL p c pcm)) caps (fun _ => caps) tt (Table u) HG HC) as K.
    rewrite capacities_one in K. apply K; [intros ? _ ?; left; lia|reflexivity|lia|auto].
  - apply finally_enough; [exact (HG (Table u))|apply HC|now apply requests_in].
Qed.
Print Assumptions C83_room_encode.
Theorem C83_room_wav : forall p g caps w pcm w' r, doubling g -> (forall v, 0 <= caps v) -> wav_encode p w pcm = Ok (w', r) ->
  zlen (wav_pcm w) <= caps Pcm -> zlen (wav_pcm w') <= capacities g caps (log (wav_encodeL p w pcm)) Pcm.
Proof.
  intros p g caps w pcm w' r HG HC E HL. change (zlen (wav_pcm w')) with (wlen w' Pcm).
  apply (log_room g caps (wav_encodeL p w pcm) _ (wlen w) (fun '(w', _) => wlen w') (w', r)); auto; [apply covers_wav|now rewrite out_wav_encode].
Qed.
Print Assumptions C83_room_wav.

(** ** Recording *)
Lemma encode_asks p c pcms c' info B : ad_info c = Ok info -> encode_all p c pcms = Ok c' -> Forall (fun pcm => zlen pcm / si_channels info <= B) pcms ->
  (forall t, length_of c (Table t) <= length_of c' (Table t)) /\
  forall v n, In (v, n) (encode_log p c pcms) -> In v recording_vectors /\ n <= match v with Table t => length_of c' v | _ => B end.
Proof.
  intros EI E HF. assert (EQ : forall c u, length_of c (Table u) = entries c u) by (intros ? []; reflexivity).
  revert c EI E; induction HF as [|pcm pcms HB HF IH]; intros c EI E; unfold encode_all in E; cbn [foldM] in E.
  { injection E as <-. split; [intros; lia|]. intros v n []. }
  cbn [encode_log]. inv_bind E. inv_bind Ha. destruct a0 as [c1 r1]. injection Ha as <-. rewrite Ha0.
  destruct (IH c1 ltac:(rewrite (encode_keeps_info _ _ _ _ _ Ha0); exact EI) E) as [I1 I2].
  destruct (grows_encode (fun v n => v = Scratch /\ n <= B) p c pcm info EI (conj eq_refl HB) (c1, r1) ltac:(now rewrite out_encode)) as [G A].
  split.
  - intros t. specialize (I1 t). destruct (G t) as [G1 _]. rewrite !EQ in *. lia.
  - intros v n H. apply in_app_or in H. destruct H as [H|H]; [|now apply I2]. specialize (A _ _ H). destruct v as [t| |j|]; cbn [within] in A.
    + split; [destruct t; cbn; auto 10|]. specialize (I1 t). rewrite !EQ in *. lia.
    + split; [cbn; auto 10|]. lia.
    + destruct A; discriminate.
    + destruct A; discriminate.
Qed.
(** How long the vectors of a recording get. *)
Lemma recorded_lengths p info level pcms c : let ch := si_channels info in let n := ch * total_blocks ch pcms in let F := ch * zlen pcms in
  recording_ok ch pcms -> encode_all p (new_codec info level) pcms = Ok c ->
  16 * length_of c (Table Chunks) <= 2 * n + n / 4 + 6 * ch + 32 /\ length_of c (Table Exponents) = (F + 1) / 2 /\ length_of c (Table Flags) = (F + 63) / 64 /\
  length_of c (Table Sizes) = F /\ length_of c (Table Positions) = F /\ length_of c (Table Histories) = F.
Proof.
  intros ch n F HR E. destruct (recorded p info level pcms c HR E) as (_ & _ & _ & _ & T2 & T3 & _). fold ch in T2, T3. fold n in T3. fold F in T2.
  pose proof HR as (Hch & _ & _ & Hf & _). pose proof (zlen_nonneg pcms).
  pose proof (encode_all_sized p pcms _ c info [] Hch (new_sized info level) ltac:(change (zlen (@nil Z)) with 0; fold ch; fold ch in Hf; lia) E) as SZ.
  destruct SZ as (_ & l & (HA & HB & HC & S1 & S2 & S3) & _). unfold table_frames in T2.
  assert (ZL : zlen l = F) by (rewrite <- T2, S1, zlen_map; reflexivity).
  destruct HB as (_ & _ & HB & _). destruct HC as (_ & _ & _ & HC & _). rewrite zlen_map, ZL in HB. rewrite ZL in HC.
  cbn [length_of]. rewrite T2, S2, S3, !zlen_map, ZL, HB, HC. repeat split; auto.
  unfold memory_bits in T3. pose proof (Z.div_mod n 4 ltac:(lia)). pose proof (Z.mod_pos_bound n 4 ltac:(lia)). lia.
Qed.
Lemma blocks_below ch pcms : 0 < ch -> Forall (fun pcm => zlen pcm / ch <= total_blocks ch pcms) pcms /\ 0 <= total_blocks ch pcms.
Proof.
  intros Hc. induction pcms as [|x l [I1 I2]]; [split; [constructor|reflexivity]|].
  assert (E : total_blocks ch (x :: l) = zlen x / ch + total_blocks ch l) by reflexivity. rewrite E.
  assert (0 <= zlen x / ch) by (apply Z.div_pos; [apply zlen_nonneg|lia]). split; [|lia]. constructor; [lia|].
  eapply Forall_impl; [|exact I1]. cbv beta. lia.
Qed.
Lemma recording_nodup : NoDup recording_vectors.
Proof. repeat constructor; cbn; intuition discriminate. Qed.
Lemma recording_most p info level pcms c : let ch := si_channels info in let n := ch * total_blocks ch pcms in let F := ch * zlen pcms in
  recording_ok ch pcms -> encode_all p (new_codec info level) pcms = Ok c ->
  forall v k, In (v, k) (encode_log p (new_codec info level) pcms) -> In v recording_vectors /\ k <= match v with Table Chunks | Scratch => n | _ => F end.
Proof.
  intros ch n F HR E v k H. pose proof HR as (Hch & H3 & _). fold ch in Hch, H3. destruct (blocks_below ch pcms Hch) as [B1 B2].
  destruct (encode_asks p (new_codec info level) pcms c info (total_blocks ch pcms) eq_refl E B1) as [_ A]. destruct (A v k H) as [A1 A2]. split; [exact A1|].
  destruct (recorded_lengths p info level pcms c HR E) as (L1 & L2 & L3 & L4 & L5 & L6). fold ch in L1, L2, L3, L4, L5, L6. fold n in L1. fold F in L2, L3, L4, L5, L6.
  destruct pcms as [|x l]; [destruct H|].
  assert (E1 : total_blocks ch (x :: l) = zlen x / ch + total_blocks ch l) by reflexivity. destruct (blocks_below ch l Hch) as [_ B3].
  assert (3 <= zlen x / ch) by (apply Z.div_le_lower_bound; lia).
  assert (N3 : 3 * ch <= n) by (unfold n; nia). assert (F1 : 1 <= F) by (unfold F; rewrite zlen_cons; pose proof (zlen_nonneg l); nia).
  assert (N1 : total_blocks ch (x :: l) <= n) by (unfold n; nia).
  clearbody n F. destruct v as [[]| |j|].
  - pose proof (Z.div_mod n 4 ltac:(lia)). pose proof (Z.mod_pos_bound n 4 ltac:(lia)). lia.
  - rewrite L2 in A2. pose proof (Z.div_mod (F + 1) 2 ltac:(lia)). pose proof (Z.mod_pos_bound (F + 1) 2 ltac:(lia)). lia.
  - rewrite L3 in A2. pose proof (Z.div_mod (F + 63) 64 ltac:(lia)). pose proof (Z.mod_pos_bound (F + 63) 64 ltac:(lia)). lia.
  - lia.
  - lia.
  - lia.
  - lia.
  - cbn in A1. intuition discriminate.
  - cbn in A1. intuition discriminate.
Qed.
Lemma nothing_nonneg : forall v, 0 <= nothing v.
Proof. intros. unfold nothing. lia. Qed.
(** Recording [n] samples with [zlen pcms] encode calls on [ch] channels, each of which makes [F] frames: two vectors grow with the
    samples and five with the frames, and each of them is allocated at most once and then once for each doubling. *)
Theorem C83_encode : forall p g info level pcms c,
  let ch := si_channels info in let n := ch * total_blocks ch pcms in let F := ch * zlen pcms in
  doubling g -> recording_ok ch pcms -> encode_all p (new_codec info level) pcms = Ok c ->
  allocations g nothing (encode_log p (new_codec info level) pcms) <= 2 * (1 + Z.log2_up n) + 5 * (1 + Z.log2_up F) /\
  moved g nothing (encode_log p (new_codec info level) pcms) <= 4 * n + 10 * F.
Proof.
  intros p g info level pcms c ch n F HG HR E. pose proof (recording_most p info level pcms c HR E) as M. fold ch in M. fold n in M. fold F in M.
  pose proof HR as (Hch & _). fold ch in Hch. destruct (blocks_below ch pcms Hch) as [_ B2]. pose proof (zlen_nonneg pcms).
  assert (0 <= n) by (unfold n; nia). assert (0 <= F) by (unfold F; nia).
  pose proof (cost_allocations g nothing _ _ _ HG nothing_nonneg recording_nodup M) as A.
  pose proof (cost_moved g nothing _ _ _ HG nothing_nonneg recording_nodup M) as V.
  cbn [total fold_right recording_vectors map app] in A, V. clearbody n F. split; lia.
Qed.
Print Assumptions C83_encode.
(** The memory a recording ends up with: less than 5 bytes for each sample, 34 for each frame, 12 for each channel, 8 for each block
    of the longest call, and 456. *)
Theorem C83_memory : forall p g info level pcms c B,
  let ch := si_channels info in let n := ch * total_blocks ch pcms in let F := ch * zlen pcms in
  doubling g -> moderate g -> recording_ok ch pcms -> encode_all p (new_codec info level) pcms = Ok c ->
  Forall (fun pcm => zlen pcm / ch <= B) pcms -> 0 <= B ->
  bytes_held (capacities g nothing (encode_log p (new_codec info level) pcms)) recording_vectors <= 5 * n + 34 * F + 12 * ch + 8 * B + 456.
Proof.
  intros p g info level pcms c B ch n F HG HM HR E HB B0. pose proof HR as (Hch & _). fold ch in Hch. destruct (blocks_below ch pcms Hch) as [_ B2]. pose proof (zlen_nonneg pcms).
  assert (0 <= n) by (unfold n; nia). assert (0 <= F) by (unfold F; nia).
  destruct (encode_asks p (new_codec info level) pcms c info B eq_refl E HB) as [_ A].
  destruct (recorded_lengths p info level pcms c HR E) as (L1 & L2 & L3 & L4 & L5 & L6). fold ch in L1, L2, L3, L4, L5, L6. fold n in L1. fold F in L2, L3, L4, L5, L6.
  assert (K : forall v, 0 <= capacities g nothing (encode_log p (new_codec info level) pcms) v <= Z.max 8 (2 * match v with Table t => length_of c v | _ => B end)).
  { intros v. pose proof (cost_capacity g nothing _ recording_vectors _ HG nothing_nonneg A v HM) as C. change (nothing v) with 0 in C. cbv beta in C. lia. }
  set (caps := capacities g nothing _) in *. clearbody caps n F. cbn [bytes_held fold_right recording_vectors map app entry_bytes].
  pose proof (K (Table Chunks)) as K1. pose proof (K (Table Exponents)) as K2. pose proof (K (Table Flags)) as K3. pose proof (K (Table Sizes)) as K4.
  pose proof (K (Table Positions)) as K5. pose proof (K (Table Histories)) as K6. pose proof (K Scratch) as K7. cbv beta iota in *.
  rewrite L2 in K2. rewrite L3 in K3. rewrite L4 in K4. rewrite L5 in K5. rewrite L6 in K6.
  pose proof (Z.div_mod (F + 1) 2 ltac:(lia)). pose proof (Z.mod_pos_bound (F + 1) 2 ltac:(lia)).
  pose proof (Z.div_mod (F + 63) 64 ltac:(lia)). pose proof (Z.mod_pos_bound (F + 63) 64 ltac:(lia)).
  pose proof (Z.div_mod n 4 ltac:(lia)). pose proof (Z.mod_pos_bound n 4 ltac:(lia)). lia.
Qed.
Print Assumptions C83_memory.

(** ** Playing *)
(** How many chunks decoding can make the stream long: those there are, or those up to its cursor, and then four for each sample the
    table counts and twelve for each frame. *)
Definition chunks_at_most (c : adhoc) : Z :=
  Z.max (zlen (bs_binary (as_stream (ad_stream c)))) (bs_cursor (as_stream (ad_stream c)) / 128) + 4 * table_samples c + 12 * table_frames c + 5.
Definition playing_vectors (ch : Z) : list vector := Table Chunks :: map Buffer (range ch).
Lemma playing_nodup ch : NoDup (playing_vectors ch).
Proof.
  constructor; [intros H; apply in_map_iff in H; destruct H as (? & ? & _); discriminate|].
  apply FinFun.Injective_map_NoDup; [intros a b [= ->]; reflexivity|apply range_nodup].
Qed.
Lemma playing_most p c bufs info : in_memory c info ->
  forall v n, In (v, n) (decode_log p c bufs) -> In v (playing_vectors (si_channels info)) /\ n <= match v with Table Chunks => chunks_at_most c | _ => 65535 end.
Proof.
  intros H v n HI. pose proof (in_memory_fit c info H) as [D1 (D2 & D3 & D4)]. cbn [codec_state fst snd] in *.
  set (s := as_stream (ad_stream c)) in *. set (L := zlen (bs_binary s)) in *.
  set (X := Z.max (bs_cursor s) (128 * L + 256) + 512 * rest (ad_headers c) + 1).
  destruct D4 as [C0 C1]. assert (XS : X <= 2 ^ 70) by (unfold X; lia).
  assert (DG : dgood X (si_channels info) L (codec_state c)).
  { split; [split; [exact D1|]|exact (im_sizes _ _ H)]. split; [exact D2|]. split; [exact D3|]. split; [exact C0|]. cbn [codec_state fst snd]. fold s. unfold X. lia. }
  pose proof (asks_decodes X (si_channels info) XS p L info bufs c (im_info _ _ H) eq_refl DG v n HI) as R.
  assert (N : Forall (fun x => 0 <= x) (fhs_sizes (ad_headers c))) by (eapply Forall_impl; [|exact (im_sizes _ _ H)]; cbv beta; lia).
  pose proof (rest_all (ad_headers c) N) as RA. rewrite frames_split in RA. destruct v as [[]| |j|]; cbn [roomy] in R; try contradiction.
  - split; [now left|]. eapply Z.le_trans; [exact R|]. unfold chunks_at_most. fold s. fold L.
    assert (Q : X / 128 < Z.max L (bs_cursor s / 128) + 4 * table_samples c + 12 * table_frames c + 4); [|lia].
    apply Z.div_lt_upper_bound; [lia|]. unfold X. pose proof (Z.div_mod (bs_cursor s) 128 ltac:(lia)). pose proof (Z.mod_pos_bound (bs_cursor s) 128 ltac:(lia)). lia.
  - split; [right; apply in_map, in_range; lia|lia].
Qed.
(** Any codec that fits into memory, whatever its tables and its stream hold, any buffers, and any capacities to start with: the
    stream grows at most logarithmically often, and the buffer of each channel at most 17 times, ever. *)
Theorem C83_decode : forall p g caps c bufs info, doubling g -> (forall v, 0 <= caps v) -> in_memory c info ->
  allocations g caps (decode_log p c bufs) <= 1 + Z.log2_up (chunks_at_most c) + 17 * si_channels info /\
  moved g caps (decode_log p c bufs) <= 2 * chunks_at_most c + 131068 * si_channels info.
Proof.
  intros p g caps c bufs info HG HC H. pose proof (playing_most p c bufs info H) as M. pose proof (im_channels _ _ H) as Hch.
  pose proof (cost_allocations g caps _ _ _ HG HC (playing_nodup (si_channels info)) M) as A.
  pose proof (cost_moved g caps _ _ _ HG HC (playing_nodup (si_channels info)) M) as V.
  assert (T : forall (F : vector -> Z) b, (forall j, F (Buffer j) = b) -> total F (map Buffer (range (si_channels info))) = b * si_channels info).
  { intros F b HF. rewrite (total_ext _ (fun _ => b)); [rewrite total_const, zlen_map, zlen_range, Z.max_r by lia; reflexivity|]. intros v Hv. apply in_map_iff in Hv. destruct Hv as (j & <- & _). apply HF. }
  unfold playing_vectors in A, V. cbn [total fold_right] in A, V.
  assert (N0 : 1 <= chunks_at_most c).
  { unfold chunks_at_most, table_samples, table_frames. pose proof (sum_bound _ _ (im_sizes _ _ H)). pose proof (zlen_nonneg (bs_binary (as_stream (ad_stream c)))). pose proof (zlen_nonneg (fhs_sizes (ad_headers c))). lia. }
  pose proof (T (fun v => 1 + Z.log2_up match v with Table Chunks => chunks_at_most c | _ => 65535 end) 17 (fun j => eq_refl)) as T1.
  pose proof (T (fun v => Z.max 0 (2 * (match v with Table Chunks => chunks_at_most c | _ => 65535 end - 1))) 131068 (fun j => eq_refl)) as T2.
  unfold total in T1, T2. cbv beta in T1, T2. split; [rewrite T1 in A|rewrite T2 in V]; lia.
Qed.
Print Assumptions C83_decode.
(** Playing a recording from its start. *)
Theorem C83_playback : forall p g caps info level pcms c bufs,
  let ch := si_channels info in let n := ch * total_blocks ch pcms in let F := ch * zlen pcms in
  doubling g -> (forall v, 0 <= caps v) -> recording_ok ch pcms -> encode_all p (new_codec info level) pcms = Ok c ->
  allocations g caps (decode_log p (ad_init c) bufs) <= 1 + Z.log2_up (5 * n + 13 * F + 7) + 17 * ch.
Proof.
  intros p g caps info level pcms c bufs ch n F HG HC HR E. destruct (recorded p info level pcms c HR E) as (IM & _ & _ & T1 & T2 & T3 & _).
  fold ch in T1, T2, T3. fold n in T1, T3. fold F in T2. destruct (C83_decode p g caps (ad_init c) bufs info HG HC IM) as [A _]. fold ch in A.
  eapply Z.le_trans; [exact A|]. assert (Z.log2_up (chunks_at_most (ad_init c)) <= Z.log2_up (5 * n + 13 * F + 7)); [|lia]. apply Z.log2_up_le_mono.
  unfold chunks_at_most. change (table_samples (ad_init c)) with (table_samples c). change (table_frames (ad_init c)) with (table_frames c).
  change (bs_binary (as_stream (ad_stream (ad_init c)))) with (bs_binary (as_stream (ad_stream c))).
  change (bs_cursor (as_stream (ad_stream (ad_init c))) / 128) with 0. unfold memory_bits in T3. pose proof (zlen_nonneg (bs_binary (as_stream (ad_stream c)))).
  destruct pcms as [|x l].
  { assert (n = 0) by (unfold n, total_blocks; cbn; lia). injection E as <-. change (zlen (bs_binary _)) with 0. assert (F = 0) by (unfold F; change (zlen (@nil (list f32))) with 0; lia). lia. }
  pose proof HR as (Hch & _). fold ch in Hch. assert (ch <= F) by (unfold F; rewrite zlen_cons; pose proof (zlen_nonneg l); nia).
  destruct (blocks_below ch (x :: l) Hch) as [_ B2]. assert (0 <= n) by (unfold n; nia). clearbody n F. lia.
Qed.
Print Assumptions C83_playback.

(** ** WAV *)
(** Any codec, any slices, any capacity to start with. *)
Theorem C83_wav : forall p g caps w pcms, doubling g -> (forall v, 0 <= caps v) ->
  allocations g caps (wav_log p w pcms) <= 1 + Z.log2_up (zlen (wav_pcm w) + 2 * samples pcms) /\
  moved g caps (wav_log p w pcms) <= 2 * zlen (wav_pcm w) + 4 * samples pcms.
Proof.
  intros p g caps w pcms HG HC.
  assert (M : forall v n, In (v, n) (wav_log p w pcms) -> In v [Pcm] /\ n <= zlen (wav_pcm w) + 2 * samples pcms).
  { intros v n H. enough (only_pcm (zlen (wav_pcm w) + 2 * samples pcms) v n) as [-> Q] by (split; [now left|exact Q]). generalize (Z.le_refl (zlen (wav_pcm w) + 2 * samples pcms)).
    generalize (zlen (wav_pcm w) + 2 * samples pcms) at 2 3 as N. revert w H. induction pcms as [|pcm pcms IH]; intros w H N HN; [destruct H|]. cbn [wav_log samples] in *.
    pose proof (samples_nonneg pcms). destruct (asks_wav p N w pcm ltac:(lia)) as [A1 A2]. apply in_app_or in H. destruct H as [H|H]; [exact (A1 _ _ H)|].
    destruct (wav_encode p w pcm) as [[w' r]| |] eqn:E; [|destruct H|destruct H]. specialize (A2 _ _ eq_refl). apply (IH w'); [exact H|lia]. }
  assert (ND : NoDup [Pcm]) by (repeat constructor; cbn; tauto).
  pose proof (cost_allocations g caps _ _ (fun _ => zlen (wav_pcm w) + 2 * samples pcms) HG HC ND M) as A.
  pose proof (cost_moved g caps _ _ (fun _ => zlen (wav_pcm w) + 2 * samples pcms) HG HC ND M) as V.
  cbn [total fold_right] in A, V. pose proof (zlen_nonneg (wav_pcm w)). pose proof (samples_nonneg pcms). split; lia.
Qed.
Print Assumptions C83_wav.

(** ** The hypotheses are met *)
Lemma rust_doubles : doubling rust_growth /\ moderate rust_growth.
Proof. split; intros v cap n H; unfold rust_growth; destruct v as [[]| | |]; lia. Qed.
(** The demonstration recording with the standard library's growth: what recording and playing really ask for. *)
Definition allocations_of_demo : option (Z * Z * Z * Z * Z) :=
  match encode_all Debug (new_codec slow 4) demo with
  | Ok c =>
      let rs := encode_log Debug (new_codec slow 4) demo in
      Some (allocations rust_growth nothing rs, moved rust_growth nothing rs, bytes_held (capacities rust_growth nothing rs) recording_vectors,
            allocations rust_growth nothing (decode_log Debug (ad_init c) [repeat f0 6; repeat f0 10; repeat f0 6]),
            allocations rust_growth nothing (wav_log Debug (wav_new slow) demo))
  | _ => None
  end.
Example C83_demo : allocations_of_demo = Some (10, 12, 252, 4, 3).
Proof. vm_compute. reflexivity. Qed.
Example C83_applies : doubling rust_growth /\ moderate rust_growth /\ recording_ok (si_channels slow) demo /\ Forall (fun pcm => zlen pcm / 2 <= 5) demo /\
  exists c, encode_all Debug (new_codec slow 4) demo = Ok c /\ in_memory (ad_init c) slow.
Proof.
  destruct rust_doubles as [R1 R2]. destruct C82_applies as [A1 (c & A2 & _ & A3)]. split; [exact R1|]. split; [exact R2|]. split; [exact A1|].
  assert (F : forallb (fun pcm => zlen pcm / 2 <=? 5) demo = true) by (vm_compute; reflexivity).
  split; [|exists c; exact (conj A2 A3)]. rewrite Forall_forall. rewrite forallb_forall in F. intros pcm H. specialize (F pcm H). lia.
Qed.
