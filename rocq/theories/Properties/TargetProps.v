(** * Properties C78 and C79: machines with a smaller [usize], such as wasm32 *)
From Coq Require Import ZArith List Bool Lia Reals Lra.
From Verif Require Import Model.Base Model.F32 Model.Sample Model.BitStream Model.NibbleList Model.BitVec Model.Frame Model.Adhoc Model.Bincode
  Model.Wav Model.Narrow Spec.Codec Spec.Recording Spec.Frames Spec.Files Spec.Targets
  Proofs.BaseFacts Proofs.BitStreamFacts Proofs.BitLog Proofs.Containers Proofs.Headers Proofs.FrameFacts Proofs.EncodeFacts Proofs.RoundTrip
  Proofs.FrameLaws Proofs.FileFacts Proofs.NarrowFacts Proofs.EnoughMemory Properties.Demo Properties.SizeProps Properties.SampleProps.
Import ListNotations.
Open Scope Z_scope.

(** ** C78: a program sees the same on every target *)
(** The program may call everything an AdhocCodec offers, in any order, with any arguments its machine can
    represent, and it may load any file that such a program saved on any target.  Either its machine runs out
    of memory, or it gets the same replies -- or the same panic -- as on a 64-bit machine with unlimited memory. *)
Theorem C78_same_everywhere : forall w alloc p ks,
  target w alloc -> (forall k, In k ks -> passable w k) -> (forall f, In (LoadFile f) ks -> genuine f) ->
  same_or_memory (program (on w alloc p) ks) (program (ideal p) ks).
Proof. exact program_agree. Qed.
Print Assumptions C78_same_everywhere.
(** Two targets that both have the memory see the same. *)
Theorem C78_two_targets : forall w1 alloc1 w2 alloc2 p ks rs1 rs2,
  target w1 alloc1 -> target w2 alloc2 -> (forall k, In k ks -> passable w1 k /\ passable w2 k) -> (forall f, In (LoadFile f) ks -> genuine f) ->
  program (on w1 alloc1 p) ks = Ok rs1 -> program (on w2 alloc2 p) ks = Ok rs2 -> rs1 = rs2.
Proof.
  intros w1 alloc1 w2 alloc2 p ks rs1 rs2 T1 T2 HP HL E1 E2.
  destruct (C78_same_everywhere w1 alloc1 p ks T1 (fun k Hk => proj1 (HP k Hk)) HL) as [X|X]; [congruence|].
  destruct (C78_same_everywhere w2 alloc2 p ks T2 (fun k Hk => proj2 (HP k Hk)) HL) as [Y|Y]; congruence.
Qed.
Print Assumptions C78_two_targets.
(** A WavCodec: any calls, any files. *)
Theorem C78_wav_same_everywhere : forall w alloc p info ks,
  target w alloc -> info_fits info -> same_or_memory (wprogram p (won w alloc p) info ks) (wprogram p (wideal p) info ks).
Proof. exact wprogram_agree. Qed.
Print Assumptions C78_wav_same_everywhere.

(** Running out of memory takes an allocator that refuses: whatever a program does, some amount of memory is enough,
    and the same amount on every target. *)
Theorem C78_enough_memory : forall p ks, exists enough, forall w alloc,
  32 <= w <= 64 -> (forall n, n <= enough -> alloc n = true) -> program (on w alloc p) ks <> Panic OutOfMemory.
Proof. exact program_enough. Qed.
Print Assumptions C78_enough_memory.
Theorem C78_wav_enough_memory : forall p info ks, exists enough, forall w alloc,
  32 <= w <= 64 -> (forall n, n <= enough -> alloc n = true) -> wprogram p (won w alloc p) info ks <> Panic OutOfMemory.
Proof. exact wprogram_enough. Qed.
Print Assumptions C78_wav_enough_memory.

(** wasm32, and a program on it: record eight samples, save; load, seek, play. *)
Definition wasm32 (n : Z) : bool := n <? 2 ^ 31.
Lemma wasm32_target : target 32 wasm32.
Proof. split; [lia|]. intros n H. apply Z.ltb_lt in H. exact H. Qed.
Definition slow_mono : stream_info := mkInfo 1000 1.
Definition tune : list f32 := map milli [5; -20; 40; -60; 80; 61; 42; -3].
Definition record_tune : list call := [SetLevel 4; SetInfo slow_mono; Encode tune; Save].
Definition play_file (f : list Z) : list call := [LoadFile f; Seek (SStart 1); Decode (repeat f0 8)].
(** The last reply: what was saved, or what was played. *)
Definition saved (o : outcome (list reply)) : list Z :=
  match o with Ok rs => match rev rs with File f :: _ => f | _ => [] end | _ => [] end.
Definition played (o : outcome (list reply)) : list Z :=
  match o with Ok rs => match rev rs with Decoded b _ :: _ => map truncate_sample b | _ => [] end | _ => [] end.
Definition tune_file : list Z := Eval vm_compute in saved (program (on 32 wasm32 Debug) record_tune).
Example C78_applies :
  target 32 wasm32 /\ genuine tune_file /\ (forall k, In k (play_file tune_file) -> passable 32 k) /\
  played (program (on 32 wasm32 Debug) (play_file tune_file)) = [-640; 1296; -1968; 2608; 1968; 1360; -96; 0] /\
  played (program (ideal Debug) (play_file tune_file)) = [-640; 1296; -1968; 2608; 1968; 1360; -96; 0].
Proof.
  split; [exact wasm32_target|]. split.
  { apply (genuine_saved 32 wasm32 Debug record_tune [Done; Done; Encoded (Some 8); File tune_file]); [exact wasm32_target| | | |].
    - intros k [<-|[<-|[<-|[<-|[]]]]]; vm_compute; repeat split; congruence.
    - intros g [X|[X|[X|[X|[]]]]]; discriminate.
    - vm_compute. reflexivity.
    - cbn [In]. auto. }
  split; [|split; vm_compute; reflexivity].
  intros k [<-|[<-|[<-|[]]]]; vm_compute; repeat split; congruence.
Qed.
(** A file no target wrote: the same file with one bit of a frame's position set.  wasm32 drops the bit and plays
    on; a 64-bit machine looks past the end of the stream and plays silence. *)
Theorem C78_any_file_refuted : exists k,
  let bad := replace_nth k tune_file 128 in
  played (program (on 32 wasm32 Debug) (play_file bad)) = played (program (on 32 wasm32 Debug) (play_file tune_file)) /\
  played (program (on 32 wasm32 Debug) (play_file bad)) = [-640; 1296; -1968; 2608; 1968; 1360; -96; 0] /\
  played (program (ideal Debug) (play_file bad)) = [0; 0; 0; 0; 0; 0; 0; 0].
Proof. exists 71%nat. vm_compute. auto. Qed.
Print Assumptions C78_any_file_refuted.
(** A WavCodec on wasm32: record, seek back, overwrite, save. *)
Definition record_wav : list wcall := [WEncode tune; WSeek (SStart 2); WEncode [milli 500]; WDecode (repeat f0 2); WSave].
Example C78_wav_applies :
  info_fits slow_mono /\ is_ok (wprogram Debug (won 32 wasm32 Debug) slow_mono record_wav) = true /\
  zlen (saved (wprogram Debug (won 32 wasm32 Debug) slow_mono record_wav)) = 60.
Proof. vm_compute. repeat split; congruence. Qed.
(** Running out of memory is possible, of course. *)
Example C78_memory : program (on 32 (fun n => n <? 16) Debug) record_tune = Panic OutOfMemory.
Proof. vm_compute. reflexivity. Qed.

(** ** C79: the size estimate on a small target *)
(** What a recording makes of the vectors; [n] samples in [calls] calls. *)
Lemma recording_vectors p info level pcms c :
  let ch := si_channels info in
  let n := ch * total_blocks ch pcms in
  let f := ch * zlen pcms in
  0 <= level -> recording_ok ch pcms -> pcms <> [] -> encode_all p (new_codec info level) pcms = Ok c ->
  let chunks := zlen (bs_binary (as_stream (ad_stream c))) in
  3 * n + 39 * ch <= 128 * chunks <= 18 * n + 48 * ch + 256 /\
  zlen (nl_data (fhs_exps (ad_headers c))) = (f + 1) / 2 /\ zlen (bv_binary (fhs_inits (ad_headers c))) = (f + 63) / 64 /\
  fhs_len (ad_headers c) = f /\ 8 * zlen (ad_save c) = 8 * (117 + (f + 1) / 2 + 8 * ((f + 63) / 64) + 2 * f + 8 * f + 6 * f + 16 * chunks).
Proof.
  intros ch n f Hl HR Hne E chunks. pose proof (encoded_safe p info level pcms c HR E) as HS.
  destruct (encode_recording p info level pcms HR HS) as (c1' & E' & _ & R & _).
  rewrite E in E'. injection E' as <-. clear E. fold ch in R. pose proof HR as (Hch & H3 & _ & HF & _).
  set (inv := ad_inv_scale (new_codec info level)) in *.
  assert (L0 : zlen (repeat (@None hist) (Z.to_nat ch)) = ch) by (rewrite zlen_repeat; lia).
  pose proof (rows_bits inv 0 ch pcms _ Hch L0 (first_ok_rec ch pcms _ Hch H3)) as B.
  pose proof (rows_low inv 0 ch pcms _ Hch L0 (first_ok_rec ch pcms _ Hch H3)) as B'.
  rewrite firsts_new, Z2Nat.id in B' by lia.
  fold (frames_of inv ch pcms) in B, B'. rewrite total_samples_blocks in B, B'. fold n in B, B'.
  pose proof (concat_width _ _ (frames_width inv ch pcms)) as LF. rewrite length_frames_of in LF.
  set (fs := concat (frames_of inv ch pcms)) in *. clearbody fs.
  destruct R as [Hi _ _ _ HB [HH _] _]. destruct HB as ([W _] & _ & HC & _ & HL). rewrite HC in W.
  destruct HH as (CN & (_ & NC & N & _) & (_ & _ & _ & V & _) & S1 & S2 & S3).
  rewrite (zlen_save c info Hi), S1, S2, S3, N, V, !zlen_map, !zlen_headers_of.
  assert (ZF : zlen fs = f) by (unfold f, zlen; rewrite LF; lia). rewrite ZF. fold chunks in W, HL |- *.
  set (bits := zlen (flat_map fr_bits fs)) in *. assert (0 <= bits) by apply zlen_nonneg.
  pose proof (Z.mul_div_le bits 128 ltac:(lia)). assert (0 <= bits / 128) by (apply Z.div_pos; lia).
  split; [|repeat split; auto].
  - clear - B B' W HL Hne Hch H H0 H1. clearbody bits chunks. destruct pcms; [now destruct Hne|]. destruct (existsb _ _); lia.
  - unfold fhs_len, nl_len. rewrite NC, zlen_map, zlen_headers_of. exact ZF.
Qed.
(** The estimate [filesize_upperbound] is right, or as right as on a 64-bit machine (see C24), as long as the stream has
    fewer than [2 ^ w] bits -- 512 MiB on wasm32.  A stream has at most 18 bits for each sample.  [capacity] is the
    capacity in bytes the allocator gave the exponent list. *)
Theorem C79_short_recordings : forall w p info level pcms c capacity,
  let ch := si_channels info in
  32 <= w <= 64 -> 0 <= level -> recording_ok ch pcms -> pcms <> [] -> encode_all p (new_codec info level) pcms = Ok c ->
  18 * (ch * total_blocks ch pcms) + 48 * ch + 256 < 2 ^ w -> ch * zlen pcms + 63 < 2 ^ w -> 0 <= 8 * capacity < 2 ^ w ->
  t_ad_filesize_upperbound w p capacity c = Ok (ad_filesize_upperbound capacity c).
Proof.
  intros w p info level pcms c capacity ch Hw Hl HR Hne E HN HF HC.
  destruct (recording_vectors p info level pcms c Hl HR Hne E) as (B & _ & V & L & _). fold ch in B, V, L.
  unfold t_ad_filesize_upperbound, t_bs_capacity_upperbound, t_bv_capacity, ad_filesize_upperbound, bs_capacity_upperbound, fhs_weight_upperbound, bv_capacity.
  set (chunks := zlen (bs_binary _)) in *. clearbody chunks.
  destruct HR as (Hch & _). pose proof (zlen_nonneg pcms).
  rewrite uchk_ok by (assert (0 <= total_blocks ch pcms) by (apply total_blocks_nonneg; lia); nia). cbn [bind].
  rewrite uchk_ok by lia. cbn [bind].
  rewrite V. pose proof (Z.mul_div_le (ch * zlen pcms + 63) 64 ltac:(lia)). assert (0 <= (ch * zlen pcms + 63) / 64) by (apply Z.div_pos; nia).
  rewrite uchk_ok by lia. cbn [bind]. reflexivity.
Qed.
Print Assumptions C79_short_recordings.
(** From [2 ^ w] bits on, a debug build panics and a release build reports at least [2 ^ w] bits too few.  A stream has at
    least 3 bits for each sample, so this happens to every recording of at least [2 ^ w / 3] samples. *)
Theorem C79_long_recordings : forall w p info level pcms c capacity,
  let ch := si_channels info in
  32 <= w <= 64 -> 0 <= level -> recording_ok ch pcms -> encode_all p (new_codec info level) pcms = Ok c ->
  2 ^ w <= 3 * (ch * total_blocks ch pcms) -> 0 <= capacity ->
  t_ad_filesize_upperbound w Debug capacity c = Panic ArithmeticOverflow /\
  exists r, t_ad_filesize_upperbound w Release capacity c = Ok r /\ 0 <= r /\
    r + 2 ^ w + 352 <= 8 * zlen (ad_save c) + 8 * (capacity - zlen (nl_data (fhs_exps (ad_headers c)))).
Proof.
  intros w p info level pcms c capacity ch Hw Hl HR E HN HC. assert (PW : 0 < 2 ^ w) by (apply Z.pow_pos_nonneg; lia).
  assert (Hne : pcms <> []) by (intros ->; change (total_blocks ch []) with 0 in HN; lia).
  destruct (recording_vectors p info level pcms c Hl HR Hne E) as (B & N & V & L & Z). fold ch in B, N, V, L, Z.
  unfold t_ad_filesize_upperbound, t_bs_capacity_upperbound, t_bv_capacity. rewrite N, V, L, Z. set (chunks := zlen (bs_binary _)) in *. clearbody chunks.
  destruct HR as (Hch & _). pose proof (zlen_nonneg pcms). set (f := ch * zlen pcms) in *. assert (0 <= f) by nia. clearbody f.
  split.
  - unfold uchk at 1. unfold in_u. destruct (Z.ltb_spec (chunks * 128) (2 ^ w)); [lia|]. now rewrite andb_false_r.
  - assert (W : forall x, 0 <= x -> exists y, uchk Release w x = Ok y /\ 0 <= y <= x /\ (2 ^ w <= x -> y + 2 ^ w <= x)).
    { intros x Hx. unfold uchk, in_u. destruct (Z.leb_spec 0 x); [|lia]. destruct (Z.ltb_spec x (2 ^ w)); cbn [andb].
      - exists x. split; [reflexivity|]. lia.
      - exists (uwrap w x). split; [reflexivity|]. unfold uwrap. pose proof (Z.mod_pos_bound x (2 ^ w) PW). pose proof (Z.div_mod x (2 ^ w) ltac:(lia)).
        assert (1 <= x / 2 ^ w) by (apply Z.div_le_lower_bound; lia). nia. }
    assert (0 <= (f + 63) / 64) by (apply Z.div_pos; lia).
    destruct (W (chunks * 128)) as (a & -> & A1 & A2); [lia|]. destruct (W (capacity * 8)) as (b & -> & B1 & _); [lia|].
    destruct (W ((f + 63) / 64 * 64)) as (d & -> & D1 & _); [lia|]. cbn [bind]. eexists. split; [reflexivity|]. lia.
Qed.
Print Assumptions C79_long_recordings.
(** Twenty-four thousand calls with a minute of silence each. *)
Definition silence : list (list f32) := repeat (repeat f0 (Z.to_nat 60000)) (Z.to_nat 24000).
Lemma silence_zlen : Forall (fun pcm => zlen pcm = 60000) silence.
Proof. apply Forall_forall. intros pcm H. apply repeat_spec in H. subst pcm. rewrite zlen_repeat. lia. Qed.
Lemma blocks_same k (l : list (list f32)) : Forall (fun pcm => zlen pcm = k) l -> total_blocks 1 l = k * zlen l.
Proof.
  unfold total_blocks. induction 1 as [|x l H HF IH]; cbn [map fold_right]; [change (zlen (@nil (list f32))) with 0; lia|].
  rewrite IH, H, Z.div_1_r, zlen_cons. lia.
Qed.
Lemma concat_same k (l : list (list f32)) : Forall (fun pcm => zlen pcm = k) l -> zlen (concat l) = k * zlen l.
Proof.
  induction 1 as [|x l H HF IH]; cbn [concat]; [change (zlen (@nil (list f32))) with 0; change (zlen (@nil f32)) with 0; lia|].
  rewrite zlen_app, IH, H, zlen_cons. lia.
Qed.
Lemma silence_ok : recording_ok 1 silence.
Proof.
  pose proof silence_zlen as Z. assert (L : zlen silence = 24000) by (unfold silence; rewrite zlen_repeat; lia).
  split; [lia|]. split; [|split; [|split]].
  - destruct silence as [|pcm l]; [exact I|]. inversion Z; subst. lia.
  - eapply Forall_impl; [|exact Z]. intros pcm H. cbn beta in H. lia.
  - rewrite L. reflexivity.
  - rewrite (concat_same 60000), L by exact Z. vm_compute. discriminate.
Qed.
Example C79_applies : forall p, exists c,
  recording_ok (si_channels slow_mono) silence /\ encode_all p (new_codec slow_mono 4) silence = Ok c /\
  2 ^ 32 <= 3 * (si_channels slow_mono * total_blocks (si_channels slow_mono) silence).
Proof.
  intros p. change (si_channels slow_mono) with 1. pose proof silence_zlen as Z. pose proof silence_ok as HR.
  assert (L : zlen silence = 24000) by (unfold silence; rewrite zlen_repeat; lia).
  destruct (C11_bounded_loss p slow_mono 4 silence) as (c & out & E & _); [lia|exact HR| | |].
  - intros a b d E HF HL. destruct b as [|x b]; [cbn in HL; lia|]. exfalso. inversion HF as [|? ? Hx _]; subst.
    rewrite E in Z. apply Forall_app in Z. destruct Z as [_ Z]. inversion Z as [|? ? Zx _]; subst. change (si_channels slow_mono) with 1 in Hx. lia.
  - apply Forall_forall. intros pcm H. apply repeat_spec in H. subst pcm. apply Forall_forall. intros x H. apply repeat_spec in H. subst x.
    split; [reflexivity|]. cbn. rewrite Rabs_R0. lra.
  - exists c. split; [exact HR|]. split; [exact E|]. rewrite (blocks_same 60000), L by exact Z. vm_compute. discriminate.
Qed.
Example C79_applies_short : match encode_all Debug (new_codec stereo 4) demo with
  | Ok c => 18 * (2 * total_blocks 2 demo) + 48 * 2 + 256 < 2 ^ 32 /\ t_ad_filesize_upperbound 32 Debug 4 c = Ok 2088 | _ => False end.
Proof. vm_compute. auto. Qed.
