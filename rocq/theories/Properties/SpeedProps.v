(** * Property C82: encoding and decoding take time proportional to the number of samples *)
From Coq Require Import ZArith List Bool Lia.
From Verif Require Import Model.Base Model.F32 Model.Sample Model.BitStream Model.NibbleList Model.BitVec Model.Frame Model.Adhoc Model.Bincode
  Model.Steps Spec.Codec Spec.Recording Spec.Frames Spec.Speed
  Proofs.BaseFacts Proofs.BitStreamFacts Proofs.BitLog Proofs.Containers Proofs.Headers Proofs.FrameFacts Proofs.EncodeFacts Proofs.RoundTrip
  Proofs.FrameLaws Proofs.AnyState Proofs.Memory Proofs.Terminates Proofs.Oversize Proofs.StepFacts Properties.Demo.
Import ListNotations.
Open Scope Z_scope.

Lemma costs_steps {A} (m : timed A) B (Q : A -> Z) : costs m B Q -> (forall a, result m = Ok a -> 0 <= Q a) -> steps m <= B.
Proof. unfold costs. intros H HQ. destruct (result m); auto. specialize (HQ a eq_refl). lia. Qed.

(** The counted functions are the functions of the model: counting changes neither what they return nor when they panic. *)
Theorem C82_same_calls : forall p c pcm buf dt,
  result (ad_encodeT p c pcm) = ad_encode p c pcm /\ result (ad_decodeT p c buf) = ad_decode p c buf /\
  result (ad_seekT p c dt) = ad_seek p c dt /\ result (ad_sample_countT p c) = ad_sample_count p c.
Proof. intros. repeat split; [apply res_encode|apply res_decode|apply res_seek|apply res_count]. Qed.
Print Assumptions C82_same_calls.

(** ** Encoding *)
Lemma encode_channel_info p pcm n k c j c' : encode_channel p pcm n k c j = Ok c' -> as_info (ad_stream c') = as_info (ad_stream c).
Proof.
  intros H. unfold encode_channel in H. inv_bind H. inv_bind H. destruct a0. inv_bind H. inv_bind H. destruct a1 as [[fc s] hs].
  inv_bind H. injection H as <-. reflexivity.
Qed.
Lemma encode_keeps_info p c pcm c' r : ad_encode p c pcm = Ok (c', r) -> ad_info c' = ad_info c.
Proof.
  intros H. unfold ad_encode in H. inv_bind H. inv_bind H. inv_bind H. injection H as <- _. unfold ad_info. f_equal.
  clear -Ha1. revert c Ha1. induction (range (si_channels a)) as [|j l IH]; intros c H; cbn [foldM] in H; [now injection H as <-|].
  inv_bind H. apply IH in H. rewrite H. eapply encode_channel_info; eauto.
Qed.
(** Any codec, any slices: at most 284 steps for each sample, 27 for each call and channel, and 1 for each call. *)
Theorem C82_encode : forall p c pcms info, ad_info c = Ok info -> 0 <= si_channels info ->
  encode_steps p c pcms <= 284 * samples pcms + (27 * si_channels info + 1) * zlen pcms.
Proof.
  intros p c pcms info EI Hc. revert c EI; induction pcms as [|pcm pcms IH]; intros c EI; cbn [encode_steps samples].
  { change (zlen (@nil (list f32))) with 0. lia. }
  rewrite zlen_cons. pose proof (costs_steps _ _ _ (cost_encode p c pcm info EI Hc) ltac:(intros; cbv beta; lia)) as B.
  pose proof (zlen_nonneg pcms). assert (0 <= samples pcms).
  { clear. induction pcms as [|x l IH]; cbn [samples]; [lia|]. pose proof (zlen_nonneg x). lia. }
  destruct (ad_encode p c pcm) as [[c' r]| |] eqn:E; [|nia|nia]. specialize (IH c' ltac:(rewrite (encode_keeps_info _ _ _ _ _ E); exact EI)). lia.
Qed.
Print Assumptions C82_encode.

(** ** Decoding *)
Lemma sum3_split l : fold_right (fun size acc => size + 3 + acc) 0 l = fold_right Z.add 0 l + 3 * zlen l.
Proof. induction l as [|x l IH]; [reflexivity|]. cbn [fold_right]. rewrite zlen_cons, IH. lia. Qed.
Lemma frames_split c : all_frames (ad_headers c) = table_samples c + 3 * table_frames c.
Proof. apply sum3_split. Qed.
Lemma sum_bound l M : Forall (fun x => 0 <= x < M) l -> 0 <= fold_right Z.add 0 l <= (M - 1) * zlen l.
Proof. induction 1 as [|x l Hx HF IH]; [cbn; change (zlen (@nil Z)) with 0; lia|]. cbn [fold_right]. rewrite zlen_cons. lia. Qed.
Lemma in_memory_frames c info : in_memory c info -> 0 <= all_frames (ad_headers c) < 2 ^ 49.
Proof.
  intros H. rewrite frames_split. pose proof (sum_bound _ _ (im_sizes _ _ H)) as B. pose proof (im_frames _ _ H) as F. unfold table_samples, table_frames.
  pose proof (zlen_nonneg (fhs_sizes (ad_headers c))). change (2 ^ 16) with 65536 in B. change (2 ^ 32) with 4294967296 in F.
  change (2 ^ 49) with 562949953421312. lia.
Qed.
Lemma in_memory_fit c info : in_memory c info -> dfit (2 ^ 70) (zlen (bs_binary (as_stream (ad_stream c)))) (si_channels info) (codec_state c).
Proof.
  intros H. pose proof (in_memory_frames _ _ H) as [F0 F]. pose proof (im_chunks _ _ H) as HC. pose proof (im_cursor _ _ H) as [C0 C1].
  assert (N : Forall (fun x => 0 <= x) (fhs_sizes (ad_headers c))) by (eapply Forall_impl; [|exact (im_sizes _ _ H)]; cbv beta; lia).
  pose proof (rest_all (ad_headers c) N) as R. split; [exact (im_states _ _ H)|]. split; [|split; [split; [exact N|split; [exact (im_next _ _ H)|exact (im_len _ _ H)]]|]].
  - unfold codec_state. cbn [fst snd]. apply tail0_start. assert (2 ^ 60 < 2 ^ 63) by (apply Z.pow_lt_mono_r; lia). lia.
  - cbn [codec_state fst snd]. split; [lia|]. change (2 ^ 49) with 562949953421312 in F. change (2 ^ 60) with 1152921504606846976 in HC.
    change (2 ^ 69) with 590295810358705651712 in C1. change (2 ^ 70) with 1180591620717411303424. lia.
Qed.
Lemma samples_nonneg bufs : 0 <= samples bufs.
Proof. induction bufs as [|x l IH]; cbn [samples]; [lia|]. pose proof (zlen_nonneg x). lia. Qed.
Lemma decode_keeps_info p c buf c' out k : ad_decode p c buf = Ok (c', out, k) -> ad_info c' = ad_info c.
Proof.
  intros H. unfold ad_decode in H. inv_bind H. inv_bind H. inv_bind H. destruct a1 as [d o]. destruct d as [[chs s] hs].
  injection H as <- _ _. reflexivity.
Qed.
Lemma decode_steps_bound p L info bufs c : ad_info c = Ok info -> 0 <= si_channels info -> dfit (2 ^ 70) L (si_channels info) (codec_state c) ->
  decode_steps p c bufs <= 56 * samples bufs + 2 * zlen bufs + dleft L (codec_state c).
Proof.
  intros EI Hc. revert c EI; induction bufs as [|buf bufs IH]; intros c EI HD; cbn [decode_steps samples]; pose proof (dleft_nonneg _ _ _ _ HD).
  { change (zlen (@nil (list f32))) with 0. lia. }
  rewrite zlen_cons. destruct (cost_decode _ (Z.le_refl _) p L c buf info EI Hc HD) as [C1 C2]. unfold costs in C1. rewrite res_decode in C1.
  pose proof (zlen_nonneg bufs). pose proof (samples_nonneg bufs). destruct (ad_decode p c buf) as [[[c' out] k]| |] eqn:E; [|lia|lia].
  specialize (IH c' ltac:(rewrite (decode_keeps_info _ _ _ _ _ _ E); exact EI) (C2 _ _ _ eq_refl)). lia.
Qed.
(** Any codec that fits into memory, whatever its tables and its stream hold, and any buffers: at most 56 steps for each sample that
    is asked for and 2 for each call; and, over all the calls together, 9 for each sample the table counts, 27 for each frame, 2 for
    each bit in memory, and 512. *)
Theorem C82_decode : forall p c bufs info, in_memory c info ->
  decode_steps p c bufs <= 56 * samples bufs + 2 * zlen bufs + (9 * table_samples c + 27 * table_frames c + 2 * memory_bits c + 512).
Proof.
  intros p c bufs info H. eapply Z.le_trans; [apply (decode_steps_bound p _ _ _ _ (im_info _ _ H) (im_channels _ _ H) (in_memory_fit _ _ H))|].
  unfold dleft, left_over. cbn [codec_state fst snd]. pose proof (im_cursor _ _ H) as [C0 _].
  assert (N : Forall (fun x => 0 <= x) (fhs_sizes (ad_headers c))) by (eapply Forall_impl; [|exact (im_sizes _ _ H)]; cbv beta; lia).
  pose proof (rest_all (ad_headers c) N) as R. rewrite frames_split in R. unfold ahead, memory_bits.
  pose proof (zlen_nonneg (bs_binary (as_stream (ad_stream c)))). lia.
Qed.
Print Assumptions C82_decode.

(** ** Recordings *)
Lemma sum_stored_bound ch pcms : 0 < ch -> fold_right Z.add 0 (stored_sizes ch pcms) <= ch * total_blocks ch pcms.
Proof.
  intros Hc. rewrite sum_stored by auto. apply Z.mul_le_mono_nonneg_l; [lia|]. unfold total_blocks.
  induction pcms as [|x l IH]; cbn [map fold_right]; [lia|].
  assert (0 <= zlen x / ch) by (apply Z.div_pos; [apply zlen_nonneg|lia]). pose proof (Z.mod_le (zlen x / ch) 65536 ltac:(lia) ltac:(lia)). lia.
Qed.
Lemma stored_below ch pcms : 0 < ch -> Forall (fun x => 0 <= x <= total_blocks ch pcms) (stored_sizes ch pcms).
Proof.
  intros Hc. assert (P : forall x : list f32, 0 <= (zlen x / ch) mod 65536 <= zlen x / ch).
  { intros x. assert (0 <= zlen x / ch) by (apply Z.div_pos; [apply zlen_nonneg|lia]). split; [apply Z.mod_pos_bound; lia|apply Z.mod_le; lia]. }
  assert (T : forall l, 0 <= total_blocks ch l).
  { intros l. unfold total_blocks. induction l as [|x l IH]; cbn [map fold_right]; [lia|]. specialize (P x). lia. }
  induction pcms as [|x l IH]; cbn [stored_sizes flat_map]; [constructor|]. fold (stored_sizes ch l).
  assert (E : total_blocks ch (x :: l) = zlen x / ch + total_blocks ch l) by reflexivity. rewrite E. specialize (T l). apply Forall_app. split.
  - apply Forall_forall. intros y Hy. apply repeat_spec in Hy. subst y. specialize (P x). lia.
  - eapply Forall_impl; [|exact IH]. cbv beta. specialize (P x). lia.
Qed.
Lemma recorded p info level pcms c : let ch := si_channels info in let n := ch * total_blocks ch pcms in
  recording_ok ch pcms -> encode_all p (new_codec info level) pcms = Ok c ->
  in_memory (ad_init c) info /\ ad_info c = Ok info /\ zlen (ad_channels c) = ch /\ table_samples c <= n /\ table_frames c = ch * zlen pcms /\
  2 * memory_bits c <= 36 * n + 96 * ch + 512 /\ fhs_len (ad_headers c) = ch * zlen pcms /\
  Forall (fun x => 0 <= x <= total_blocks ch pcms) (fhs_sizes (ad_headers c)) /\ in_memory c info.
Proof.
  intros ch n HR E. pose proof (encoded_safe p info level pcms c HR E) as HS.
  destruct (encode_recording p info level pcms HR HS) as (c1' & E' & _ & R & _).
  rewrite E in E'. injection E' as <-. pose proof HR as (Hch & H3 & Hz & Hf & Hs). fold ch in R, Hch, H3, Hz, Hf.
  pose proof (zlen_nonneg pcms) as Hk.
  pose proof (encode_all_sized p pcms _ c info [] Hch (new_sized info level) ltac:(change (zlen (@nil Z)) with 0; fold ch; lia) E) as SZ.
  destruct SZ as (_ & l & (HA & HB & HC & S1 & S2 & S3) & HCU & SM). cbn [app] in SM. fold ch in SM. rewrite SM in S1.
  assert (L0 : zlen (repeat (@None hist) (Z.to_nat ch)) = ch) by (rewrite zlen_repeat; lia).
  set (inv := ad_inv_scale (new_codec info level)) in *.
  pose proof (rows_bits inv 0 ch pcms _ Hch L0 (first_ok_rec ch pcms _ Hch H3)) as B. fold (frames_of inv ch pcms) in B.
  rewrite total_samples_blocks in B. fold n in B. pose proof (total_samples_bound ch pcms Hch) as TB. rewrite total_samples_blocks in TB. fold n in TB.
  assert (N0 : 0 <= n) by (apply Z.mul_nonneg_nonneg; [lia|]; unfold total_blocks; clear -Hch; induction pcms as [|x k IH]; cbn [map fold_right]; [lia|];
    assert (0 <= zlen x / ch) by (apply Z.div_pos; [apply zlen_nonneg|lia]); lia).
  pose proof (recording_bits inv ch pcms HR) as RB.
  set (fs := concat (frames_of inv ch pcms)) in *. clearbody fs.
  destruct R as [Hi _ HX HN HH [HE _] _]. destruct HH as ([W _] & _ & HCC & _ & HL).
  set (bits := zlen (flat_map fr_bits fs)) in *. assert (B0 : 0 <= bits) by apply zlen_nonneg.
  assert (B2 : bits <= 18 * n + 48 * ch) by (destruct (existsb _ _); lia).
  assert (K : 128 * (bits / 128) <= bits) by (apply Z.mul_div_le; lia). assert (K0 : 0 <= bits / 128) by (apply Z.div_pos; lia).
  assert (ZS : zlen (fhs_sizes (ad_headers c)) = ch * zlen pcms) by (rewrite S1; apply zlen_stored; exact Hch).
  assert (LN : fhs_len (ad_headers c) = ch * zlen pcms).
  { rewrite (fhs_rep_len (ad_headers c) l (conj HA (conj HB (conj HC (conj (eq_trans S1 (eq_sym SM)) (conj S2 S3)))))).
    rewrite <- ZS, S1, <- SM, zlen_map. reflexivity. }
  assert (ZC : zlen (ad_channels c) = ch) by (unfold ch; rewrite <- HN; unfold zlen; f_equal; clear -HX; induction HX; cbn [length]; congruence).
  assert (EI : ad_info c = Ok info) by (unfold ad_info; rewrite Hi; reflexivity).
  assert (CM : zlen (bs_binary (as_stream (ad_stream c))) < 2 ^ 60).
  { change (2 ^ 64) with 18446744073709551616 in RB. change (2 ^ 60) with 1152921504606846976. lia. }
  assert (RS : Forall (fun x => 0 <= x < 2 ^ 16) (fhs_sizes (ad_headers c))) by (rewrite S1; exact (stored_range ch pcms)).
  assert (RC : Forall (fun x => 0 <= x < 2 ^ 64) (fhs_cursors (ad_headers c))).
  { rewrite S2. apply Forall_map. eapply Forall_impl; [|exact HA]. intros h Hh. apply Hh. }
  assert (IM : forall c', ad_info c' = Ok info -> zlen (ad_channels c') = ch -> fhs_sizes (ad_headers c') = fhs_sizes (ad_headers c) ->
    fhs_cursors (ad_headers c') = fhs_cursors (ad_headers c) -> fhs_len (ad_headers c') = fhs_len (ad_headers c) -> 0 <= fhs_cursor (ad_headers c') ->
    bs_binary (as_stream (ad_stream c')) = bs_binary (as_stream (ad_stream c)) -> 0 <= bs_cursor (as_stream (ad_stream c')) <= bits -> in_memory c' info).
  { intros c' I1 I2 I3 I4 I5 I6 I7 I8. constructor; rewrite ?I3, ?I4, ?I5, ?I7; auto; try lia; try (fold ch; lia). }
  split; [apply IM; try reflexivity; [exact EI|rewrite init_channels; exact ZC|cbn [ad_init ad_stream as_stream]; cbn; lia]|].
  split; [exact EI|]. split; [exact ZC|]. split; [unfold table_samples; rewrite S1; apply sum_stored_bound; exact Hch|].
  split; [exact ZS|]. split; [unfold memory_bits; lia|]. split; [exact LN|]. split; [rewrite S1; now apply stored_below|].
  apply IM; auto; [rewrite HCU; apply zlen_nonneg|rewrite HCC; fold bits; lia].
Qed.
(** Playing a recording of [n] samples made by [zlen pcms] encode calls, from its start, into any buffers. *)
Theorem C82_playback : forall p info level pcms c bufs,
  let ch := si_channels info in let n := ch * total_blocks ch pcms in
  recording_ok ch pcms -> encode_all p (new_codec info level) pcms = Ok c ->
  decode_steps p (ad_init c) bufs <= 56 * samples bufs + 2 * zlen bufs + 45 * n + 27 * (ch * zlen pcms) + 96 * ch + 1024.
Proof.
  intros p info level pcms c bufs ch n HR E. destruct (recorded p info level pcms c HR E) as (IM & _ & _ & T1 & T2 & T3 & _).
  pose proof (C82_decode p (ad_init c) bufs info IM) as D. change (table_samples (ad_init c)) with (table_samples c) in D.
  change (table_frames (ad_init c)) with (table_frames c) in D. change (memory_bits (ad_init c)) with (memory_bits c) in D.
  fold ch in T1, T2, T3. fold n in T1, T3. lia.
Qed.
Print Assumptions C82_playback.

(** ** Counting samples and seeking *)
Theorem C82_count : forall p c, steps (ad_sample_countT p c) <= 2 * Z.max 0 (fhs_len (ad_headers c)) + 1.
Proof. intros p c. eapply costs_steps; [apply cost_count|intros; cbv beta; lia]. Qed.
Print Assumptions C82_count.
(** A seek, wherever to: it decodes one frame of each channel, so that it is as cheap as decoding; after that it drops at most the
    blocks of one frame, whose size is at most [longest]. *)
Theorem C82_seek : forall p c dt info longest, in_memory c info -> Forall (fun x => x <= longest) (fhs_sizes (ad_headers c)) -> 0 <= longest ->
  steps (ad_seekT p c dt) <= 9 * table_samples c + 27 * table_frames c + 2 * memory_bits c + 512 +
    2 * Z.max 0 (fhs_len (ad_headers c)) + 8 * si_channels info + longest * (2 * si_channels info + 1) + 5.
Proof.
  intros p c dt info M H HM M0. pose proof (in_memory_frames _ _ H) as [F0 F].
  assert (F60 : all_frames (ad_headers c) < 2 ^ 60) by (assert (2 ^ 49 < 2 ^ 60) by (apply Z.pow_lt_mono_r; lia); lia).
  assert (HM' : Forall (fun x => 0 <= x <= M) (fhs_sizes (ad_headers c))).
  { pose proof (im_sizes _ _ H) as S. rewrite Forall_forall in *. intros x Hx. specialize (HM x Hx). specialize (S x Hx). lia. }
  pose proof (cost_seek p c dt info M (im_info _ _ H) (im_channels _ _ H) (im_states _ _ H) (im_chunks _ _ H) (im_len _ _ H) F60 HM' M0 (im_cursors _ _ H)) as C.
  apply costs_steps in C; [|intros; cbv beta; lia]. rewrite frames_split in C. unfold memory_bits. lia.
Qed.
Print Assumptions C82_seek.
Theorem C82_seek_recording : forall p info level pcms c dt,
  let ch := si_channels info in let n := ch * total_blocks ch pcms in
  recording_ok ch pcms -> encode_all p (new_codec info level) pcms = Ok c ->
  steps (ad_seekT p c dt) <= 48 * n + 29 * (ch * zlen pcms) + 104 * ch + 1029.
Proof.
  intros p info level pcms c dt ch n HR E. destruct (recorded p info level pcms c HR E) as (_ & _ & _ & T1 & T2 & T3 & T4 & T5 & IM).
  fold ch in T1, T2, T3, T4, T5. fold n in T1, T3. pose proof HR as (Hch & _).
  assert (B0 : 0 <= total_blocks ch pcms).
  { unfold total_blocks. clear -Hch. induction pcms as [|x k IH]; cbn [map fold_right]; [lia|].
    assert (0 <= zlen x / ch) by (apply Z.div_pos; [apply zlen_nonneg|fold ch in Hch; lia]). lia. }
  assert (T5' : Forall (fun x => x <= total_blocks ch pcms) (fhs_sizes (ad_headers c))) by (eapply Forall_impl; [|exact T5]; cbv beta; lia).
  pose proof (C82_seek p c dt info _ IM T5' B0) as S. fold ch in S, Hch. pose proof (zlen_nonneg pcms).
  assert (0 <= ch * zlen pcms) by nia. assert (total_blocks ch pcms * (2 * ch + 1) <= 3 * n) by (unfold n; nia). lia.
Qed.
Print Assumptions C82_seek_recording.

(** ** The hypotheses are met *)
(** The demonstration recording, 8 stereo blocks in four calls at 2000 samples a second: what recording it, playing it, seeking to
    2 milliseconds and counting really take. *)
Definition slow : stream_info := mkInfo 2000 2.
Definition steps_of_demo : option (Z * Z * Z * Z) :=
  match encode_all Debug (new_codec slow 4) demo with
  | Ok c => Some (encode_steps Debug (new_codec slow 4) demo, decode_steps Debug (ad_init c) [repeat f0 6; repeat f0 10; repeat f0 6],
                  steps (ad_seekT Debug c (SStart 2)), steps (ad_sample_countT Debug c))
  | _ => None
  end.
Example C82_demo_steps : steps_of_demo = Some (495, 346, 100, 17).
Proof. vm_compute. reflexivity. Qed.
Example C82_applies : recording_ok (si_channels slow) demo /\
  exists c, encode_all Debug (new_codec slow 4) demo = Ok c /\ in_memory c slow /\ in_memory (ad_init c) slow.
Proof.
  split; [exact demo_ok|]. assert (X : match encode_all Debug (new_codec slow 4) demo with Ok _ => true | _ => false end = true) by (vm_compute; reflexivity).
  destruct (encode_all Debug (new_codec slow 4) demo) as [c| |] eqn:E; try discriminate X. exists c. split; [reflexivity|].
  destruct (recorded Debug slow 4 demo c demo_ok E) as (I1 & _ & _ & _ & _ & _ & _ & _ & I2). split; assumption.
Qed.
