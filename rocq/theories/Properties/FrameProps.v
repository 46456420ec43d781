(** * Properties C15-C17, C25, C32: what is stored per encode call and channel

    [channel_calls level ch pcms j] are the quantised samples of channel [j], one list per
    encode call; [errors] their prediction errors; [frame_start] where a frame starts in the
    bit stream (Spec/Frames.v).  Frame [i * ch + j] belongs to call [i] and channel [j]. *)
From Coq Require Import ZArith List Bool Lia.
From Verif Require Import Model.Base Model.F32 Model.Sample Model.BitStream Model.Frame Model.Adhoc
  Spec.Bits Spec.Codec Spec.Recording Spec.Frames
  Proofs.BaseFacts Proofs.Rice Proofs.FrameFacts Proofs.EncodeFacts Proofs.DecodeFacts Proofs.Predict Proofs.RoundTrip Proofs.FrameLaws Proofs.AnyState
  Properties.Demo.
Import ListNotations.
Open Scope Z_scope.

Lemma calls_facts level ch pcms i j : recording_ok ch pcms -> (i < length pcms)%nat -> (j < Z.to_nat ch)%nat ->
  let calls := channel_calls level ch pcms j in
  (i < length calls)%nat /\ 3 <= zlen (nth 0 calls []) /\ zlen (at_call calls i) = zlen (nth i pcms []) / ch.
Proof.
  intros HR Hi Hj calls.
  pose proof (chan_calls_facts (inv_gain level) 0 ch pcms j ltac:(destruct HR; lia) Hj) as F.
  unfold chan_calls in F. fold (channel_calls level ch pcms j) in F. fold calls in F.
  assert (Li : (i < length calls)%nat) by (subst calls; now rewrite length_channel_calls).
  split; [exact Li|]. split.
  - pose proof (Forall2_nth _ _ _ 0%nat [] [] F ltac:(lia)) as [_ G]. rewrite G.
    destruct HR as (Hch & H3 & _). destruct pcms as [|pcm pcms]; [cbn in Hi; lia|]. cbn [nth].
    apply Z.div_le_lower_bound; lia.
  - apply (Forall2_nth _ _ _ i [] [] F Li).
Qed.
Lemma rice_bits_cost k ds : 0 <= k -> rice_bits k ds = cost k ds.
Proof. apply zlen_flat_rice. Qed.
Lemma limit_small ds : Forall (fun d => -32767 <= d <= 32766) ds -> map limit ds = ds.
Proof. intros H. induction H as [|d ds Hd H IH]; [reflexivity|]. cbn [map]. rewrite IH. f_equal. unfold limit. lia. Qed.

(** ** C15: the stored exponent is optimal *)
Theorem C15_optimal_exponent : forall p info level pcms c1 i j,
  let ch := si_channels info in
  let calls := channel_calls level ch pcms j in
  0 <= level -> recording_ok ch pcms -> encode_all p (new_codec info level) pcms = Ok c1 ->
  (i < length pcms)%nat -> (j < Z.to_nat ch)%nat ->
  exists h, fhs_get (ad_headers c1) (Z.of_nat i * ch + Z.of_nat j) = Ok (Some h) /\
    fh_size h = zlen (nth i pcms []) / ch /\
    1 <= fh_exponent h <= 15 /\
    (Forall (fun d => -32767 <= d <= 32766) (errors calls i) ->
     forall k, 1 <= k <= 15 -> rice_bits (fh_exponent h) (errors calls i) <= rice_bits k (errors calls i)).
Proof.
  intros p info level pcms c1 i j ch calls Hl HR E Hi Hj.
  destruct (frame_law p info level pcms c1 i j Hl HR E Hi Hj) as (start & G & _ & _ & Sz & _ & _).
  destruct (calls_facts level ch pcms i j HR Hi Hj) as (Li & L3 & Lc). change (channel_calls level ch pcms j) with calls in Li, L3, Lc.
  destruct (frame_bits_law calls i Li L3) as (He & Hr & _ & _).
  eexists. split; [exact G|]. cbn [header_of fh_size fh_exponent]. change (channel_calls level (si_channels info) pcms j) with calls. change (channel_calls level (si_channels info) pcms j) with calls in Sz. change (si_channels info) with ch in Sz.
  split; [|split; [exact Hr|]].
  - rewrite Sz. apply (uwrap_small 16). pose proof (recording_chunks ch pcms HR) as C. rewrite Forall_forall in C.
    specialize (C (nth i pcms []) (nth_In _ _ Hi)). destruct HR.
    pose proof (Z.div_pos (zlen (nth i pcms [])) ch (zlen_nonneg _) ltac:(lia)). change (2 ^ 16) with 65536. lia.
  - intros _ k Hk. rewrite !rice_bits_cost by lia. rewrite He. now apply best_optimal.
Qed.
Print Assumptions C15_optimal_exponent.
(** The last call of the demonstration, second channel: parameter 12 is stored and 46 bits
    are needed, as with 13 and against 47 with 11. *)
Example C15_applies :
  errors (channel_calls 0 2 demo 1) 3 = [4224; -4226; 9369] /\
  map (fun k => rice_bits k [4224; -4226; 9369]) [11; 12; 13; 14] = [47; 46; 46; 48] /\
  forall p, match encode_all p (new_codec stereo 0) demo with
  | Ok c1 => match fhs_get (ad_headers c1) 7 with Ok (Some h) => fh_exponent h = 12 /\ fh_size h = 3 | _ => False end
  | _ => False end.
Proof. split; [vm_compute; reflexivity|]. split; [reflexivity|]. intros []; vm_compute; auto. Qed.
(** A clamped error can make the choice suboptimal: the parameter is chosen for the error
    65534 but 32766 is written; 14 is stored where 13 would have been cheaper. *)
Definition counts (l : list Z) : list f32 := map (fun n => fdiv (f32_of_Z n) (f32_of_Z 32767)) l.
Definition jump : list (list f32) := [counts [0; 20000; 0; 32767; 32767; 0]].
Example C15_clamped :
  errors (channel_calls 0 1 jump 0) 0 = [65534; 0; 0] /\
  match encode_all Debug (new_codec mono 0) jump with
  | Ok c1 => match fhs_get (ad_headers c1) 0 with Ok (Some h) => fh_exponent h = 14 | _ => False end
  | _ => False end /\
  rice_bits 13 (map limit [65534; 0; 0]) < rice_bits 14 (map limit [65534; 0; 0]).
Proof. vm_compute. auto. Qed.

(** ** C16: worst-case expansion *)
Theorem C16_expansion : forall p info level pcms c1 i j,
  let ch := si_channels info in
  let calls := channel_calls level ch pcms j in
  let n := zlen (nth i pcms []) / ch in
  let entropy_coded := if (i =? 0)%nat then n - 3 else n in
  let raw := if (i =? 0)%nat then 48 else 0 in
  0 <= level -> recording_ok ch pcms -> encode_all p (new_codec info level) pcms = Ok c1 ->
  (i < length pcms)%nat -> (j < Z.to_nat ch)%nat ->
  exists s e, frame_start c1 (Z.of_nat i * ch + Z.of_nat j) = Ok s /\
    frame_start c1 (Z.of_nat i * ch + Z.of_nat j + 1) = Ok e /\
    raw + 3 * entropy_coded <= e - s <= raw + 18 * entropy_coded /\
    (Forall (fun d => -32767 <= d <= 32767) (errors calls i) -> e - s <= raw + 17 * entropy_coded) /\
    (Forall (fun d => -1 <= d <= 1) (errors calls i) -> e - s = raw + 3 * entropy_coded).
Proof.
  intros p info level pcms c1 i j ch calls n ec raw Hl HR E Hi Hj.
  destruct (frame_law p info level pcms c1 i j Hl HR E Hi Hj) as (s & G & F1 & F2 & Sz & FD & FI).
  destruct (calls_facts level ch pcms i j HR Hi Hj) as (Li & L3 & Lc). change (channel_calls level ch pcms j) with calls in Li, L3, Lc.
  destruct (frame_bits_law calls i Li L3) as (He & Hr & _ & HB). change (channel_calls level (si_channels info) pcms j) with calls in F1, F2, Sz, FD, FI. change (si_channels info) with ch in F1, F2, Sz.
  set (f := make_frame (state_at calls i) (at_call calls i)) in *.
  exists s, (s + zlen (fr_bits f)). split; [exact F1|]. split; [exact F2|].
  replace (s + zlen (fr_bits f) - s) with (zlen (fr_bits f)) by lia. rewrite HB. fold raw.
  rewrite rice_bits_cost by lia.
  assert (Le : zlen (errors calls i) = ec).
  { unfold errors, zlen. rewrite map_length, seq_length. subst ec. fold n in Lc. unfold zlen in Lc.
    destruct i as [|i]; cbn [Nat.eqb].
    - unfold before. cbn [firstn concat length]. unfold at_call in *. unfold zlen in L3. lia.
    - assert (3 <= length (before calls (S i)))%nat; [|lia].
      unfold before. destruct calls as [|q calls']; [cbn in Li; lia|]. cbn [firstn concat nth] in *. rewrite app_length.
      unfold zlen in L3. lia. }
  assert (C1 : cost (fr_e f) (map limit (errors calls i)) <= cost (fr_e f) (errors calls i)) by (apply cost_limit; lia).
  assert (Cb : forall k, 1 <= k <= 15 -> cost (fr_e f) (errors calls i) <= cost k (errors calls i)).
  { intros k Hk. rewrite He. now apply best_optimal. }
  assert (Low : forall ds, 3 * zlen ds <= cost (fr_e f) ds).
  { induction ds as [|d ds IH]; [reflexivity|]. rewrite cost_cons, zlen_cons.
    pose proof (cost_item (fr_e f) d ltac:(lia)). lia. }
  pose proof (Low (map limit (errors calls i))) as Low1. rewrite zlen_map in Low1.
  split; [split; [lia|]|split].
  - assert (cost (fr_e f) (map limit (errors calls i)) <= 18 * ec); [|lia].
    rewrite <- Le. destruct i as [|i].
    + cbn [state_at frame_diffs] in FD. rewrite He, <- FD.
      fold (residuals (nth 0 (at_call calls 0) 0, nth 1 (at_call calls 0) 0, nth 2 (at_call calls 0) 0) (skipn 3 (at_call calls 0))).
      etransitivity; [apply best_cost_18|unfold zlen; rewrite length_diffs; lia].
      rewrite <- (firstn_skipn 3 (at_call calls 0)) in FI. apply Forall_app in FI. tauto.
    + cbn [state_at frame_diffs] in FD. rewrite He, <- FD.
      fold (residuals (fold_left shift (before calls (S i)) (0, 0, 0)) (at_call calls (S i))).
      etransitivity; [now apply best_cost_18|unfold zlen; rewrite length_diffs; lia].
  - intros HF. specialize (Cb 15 ltac:(lia)).
    assert (cost 15 (errors calls i) <= 17 * zlen (errors calls i)); [|lia].
    clear - HF. induction HF as [|d ds Hd HF IH]; [reflexivity|]. rewrite cost_cons, zlen_cons.
    assert (Z.abs d / 2 ^ 15 < 1) by (apply Z.div_lt_upper_bound; [reflexivity|change (2 ^ 15) with 32768; lia]). lia.
  - intros HF. specialize (Cb 1 ltac:(lia)).
    assert (cost 1 (errors calls i) <= 3 * zlen (errors calls i)); [|lia].
    clear - HF. induction HF as [|d ds Hd HF IH]; [reflexivity|]. rewrite cost_cons, zlen_cons.
    assert (Z.abs d / 2 ^ 1 < 1) by (apply Z.div_lt_upper_bound; [reflexivity|change (2 ^ 1) with 2; lia]). lia.
Qed.
Print Assumptions C16_expansion.
(** The whole bit stream. *)
Theorem C16_total : forall p info level pcms c1,
  let ch := si_channels info in
  0 <= level -> recording_ok ch pcms -> encode_all p (new_codec info level) pcms = Ok c1 ->
  bit_cursor (as_stream (ad_stream c1)) <= 18 * (ch * total_blocks ch pcms) + 48 * ch.
Proof.
  intros p info level pcms c1 ch Hl HR E. pose proof (encoded_safe p info level pcms c1 HR E) as HS.
  destruct (encode_recording p info level pcms HR HS) as (c1' & E' & _ & R & _).
  rewrite E in E'. injection E' as <-. fold ch in R. pose proof HR as (Hch & H3 & _).
  pose proof (rows_bits (ad_inv_scale (new_codec info level)) 0 ch pcms (repeat None (Z.to_nat ch)) Hch
    ltac:(rewrite zlen_repeat; lia) (first_ok_rec ch pcms _ Hch H3)) as B.
  fold (frames_of (ad_inv_scale (new_codec info level)) ch pcms) in B. rewrite total_samples_blocks in B.
  destruct (er_bits _ _ _ _ _ _ R) as (_ & _ & HC & _). change (bit_cursor (as_stream (ad_stream c1))) with (bs_cursor (as_stream (ad_stream c1))). rewrite HC. destruct (existsb _ _); lia.
Qed.
Print Assumptions C16_total.
(** Frame 7 of the demonstration: 46 bits for three samples. *)
Example C16_applies : forall p,
  match encode_all p (new_codec stereo 0) demo with
  | Ok c1 => frame_start c1 7 = Ok 198 /\ frame_start c1 8 = Ok (198 + 46)
  | _ => False end.
Proof. intros []; vm_compute; auto. Qed.

(** ** C17: quadratic signals *)
Lemma sig_at level ch pcms i j : (i < length pcms)%nat ->
  exists rest, concat (channel_calls level ch pcms j) =
    (before (channel_calls level ch pcms j) i ++ at_call (channel_calls level ch pcms j) i) ++ rest.
Proof.
  intros Hi. set (calls := channel_calls level ch pcms j).
  assert (Li : (i < length calls)%nat) by (subst calls; now rewrite length_channel_calls).
  exists (concat (skipn (S i) calls)). unfold before, at_call.
  rewrite <- (firstn_skipn i calls) at 1. rewrite concat_app, <- app_assoc. f_equal.
  rewrite (skipn_nth_cons calls i []) by auto. reflexivity.
Qed.
Lemma quadratic_errors qs : Forall i16 qs -> (forall q, In q qs -> -32767 <= q <= 32767) -> quadratic qs ->
  forall t, (3 <= t < length qs)%nat -> -1 <= error qs t <= 1.
Proof.
  intros HF HB HQ t Ht. specialize (HQ (t - 3)%nat ltac:(lia)).
  replace (t - 3 + 3)%nat with t in HQ by lia. replace (t - 3 + 1)%nat with (t - 2)%nat in HQ by lia.
  replace (t - 3 + 2)%nat with (t - 1)%nat in HQ by lia.
  rewrite Forall_forall in HF. unfold i16 in HF.
  assert (I : forall k, (k < length qs)%nat -> -32768 <= nth k qs 0 <= 32767).
  { intros k Hk. apply HF. now apply nth_In. }
  pose proof (predict_close (nth (t - 3) qs 0) (nth (t - 2) qs 0) (nth (t - 1) qs 0)
    ltac:(apply I; lia) ltac:(apply I; lia) ltac:(apply I; lia)) as P.
  unfold extrapolate in P. rewrite <- HQ in P. pose proof (HB (nth t qs 0) ltac:(apply nth_In; lia)).
  unfold error. lia.
Qed.
(** Every frame of a channel whose quantised samples lie on a quadratic takes exactly three
    bits per sample, and 48 for the first three samples of the channel. *)
Theorem C17_quadratic : forall p info level pcms c1 i j,
  let ch := si_channels info in
  let n := zlen (nth i pcms []) / ch in
  0 <= level -> recording_ok ch pcms -> encode_all p (new_codec info level) pcms = Ok c1 ->
  (i < length pcms)%nat -> (j < Z.to_nat ch)%nat ->
  quadratic (quant_signal (inv_gain level) ch pcms (Z.of_nat j)) ->
  exists s e, frame_start c1 (Z.of_nat i * ch + Z.of_nat j) = Ok s /\
    frame_start c1 (Z.of_nat i * ch + Z.of_nat j + 1) = Ok e /\
    e - s = if (i =? 0)%nat then 48 + 3 * (n - 3) else 3 * n.
Proof.
  intros p info level pcms c1 i j ch n Hl HR E Hi Hj HQ.
  destruct (C16_expansion p info level pcms c1 i j Hl HR E Hi Hj) as (s & e & F1 & F2 & _ & _ & H).
  exists s, e. split; [exact F1|]. split; [exact F2|]. fold ch n in H.
  rewrite H; [destruct (i =? 0)%nat; lia|].
  pose proof (quant_signal_range (inv_gain level) ch pcms (Z.of_nat j)) as RG.
  rewrite quant_signal_calls, Nat2Z.id in HQ, RG by lia. unfold chan_calls in HQ, RG.
  fold (channel_calls level ch pcms j) in HQ, RG. set (calls := channel_calls level ch pcms j) in *.
  destruct (sig_at level ch pcms i j Hi) as [rest ES]. fold calls in ES.
  unfold errors. set (b := before calls i) in *. set (q := at_call calls i) in *.
  apply Forall_forall. intros d Hd. apply in_map_iff in Hd. destruct Hd as (t & <- & Ht). apply in_seq in Ht.
  assert (EE : error (b ++ q) t = error (concat calls) t).
  { rewrite ES. unfold error. rewrite !(app_nth1 (b ++ q)) by (rewrite app_length; lia). reflexivity. }
  rewrite EE. rewrite Forall_forall in RG. apply quadratic_errors; auto.
  - apply Forall_forall. intros x Hx. specialize (RG x Hx). unfold i16. lia.
  - rewrite ES, app_length, app_length. lia.
Qed.
Print Assumptions C17_quadratic.
(** Eight samples of a parabola in two calls. *)
Definition parabola : list (list f32) := [counts [100; 4000; 7800; 11500; 15100]; counts [18600; 22000; 25300]].
Example C17_applies :
  recording_ok 1 parabola /\ quadratic (quant_signal (inv_gain 0) 1 parabola 0) /\
  forall p, match encode_all p (new_codec mono 0) parabola with
  | Ok c1 => frame_start c1 0 = Ok 0 /\ frame_start c1 1 = Ok 54 /\ frame_start c1 2 = Ok 63
  | _ => False end.
Proof.
  split; [|split].
  - split; [lia|]. split; [vm_compute; discriminate|]. split; [|split; vm_compute; congruence]. repeat constructor.
  - assert (E : quant_signal (inv_gain 0) 1 parabola 0 = [100; 4000; 7800; 11500; 15100; 18600; 22000; 25300])
      by (vm_compute; reflexivity).
    rewrite E. intros t Ht. cbn [length] in Ht.
    do 5 (destruct t as [|t]; [cbn; lia|]). lia.
  - intros []; vm_compute; auto.
Qed.

(** ** C25: the sample count *)
Theorem C25_sample_count : forall p info level pcms c1,
  let ch := si_channels info in
  0 <= level -> recording_ok ch pcms -> encode_all p (new_codec info level) pcms = Ok c1 ->
  ad_sample_count p c1 = Ok (total_blocks ch pcms) /\
  forall ops c2, play_all p ops c1 = Ok c2 -> ad_sample_count p c2 = Ok (total_blocks ch pcms).
Proof.
  intros p info level pcms c1 ch Hl HR E. pose proof (recording_count p info level pcms c1 Hl HR E) as C.
  split; [exact C|]. intros ops c2 H. rewrite (same_count p c1 c2); [exact C|]. eapply play_same; eauto.
Qed.
Print Assumptions C25_sample_count.
(** Eight blocks: five, none, none and three.  The same count after a rewind, a call that
    decodes two blocks and a seek. *)
Example C25_applies : total_blocks 2 demo = 8 /\
  forall p, match encode_all p (new_codec stereo 0) demo with
  | Ok c1 => match play_all p [Rewind; Listen (repeat f0 4); SeekTo (SStart 0)] c1 with
             | Ok c2 => ad_sample_count p c2 = Ok 8
             | _ => False end
  | _ => False end.
Proof. split; [reflexivity|]. intros []; vm_compute; reflexivity. Qed.

(** ** C32: exponent 15 in debug builds *)
Theorem C32_debug_accepts : forall info level pcms,
  let ch := si_channels info in
  0 <= level -> recording_ok ch pcms ->
  ((exists c1, encode_all Debug (new_codec info level) pcms = Ok c1) <->
   (forall i j, (i < length pcms)%nat -> (j < Z.to_nat ch)%nat ->
      let ds := errors (channel_calls level ch pcms j) i in
      ds = [] \/ exists k, 1 <= k <= 14 /\ rice_bits k ds <= rice_bits 15 ds)).
Proof.
  intros info level pcms ch Hl HR.
  assert (K : safe_build Debug (inv_gain level) ch pcms <->
    (forall i j, (i < length pcms)%nat -> (j < Z.to_nat ch)%nat ->
      let ds := errors (channel_calls level ch pcms j) i in
      ds = [] \/ exists k, 1 <= k <= 14 /\ rice_bits k ds <= rice_bits 15 ds)).
  { pose proof (frames_width (inv_gain level) ch pcms) as W. pose proof (length_frames_of (inv_gain level) ch pcms) as Ln.
    set (rows := frames_of (inv_gain level) ch pcms) in *.
    assert (Fr : forall i j, (i < length pcms)%nat -> (j < Z.to_nat ch)%nat ->
      let f := nth j (nth i rows []) (make_frame None []) in
      let ds := errors (channel_calls level ch pcms j) i in
      (frame_exp_ok Debug f <-> ds = [] \/ exists k, 1 <= k <= 14 /\ rice_bits k ds <= rice_bits 15 ds)).
    { intros i j Hi Hj f ds. destruct (calls_facts level ch pcms i j HR Hi Hj) as (Li & L3 & _).
      destruct (frame_bits_law _ i Li L3) as (He & Hr & Hres & _).
      subst f. unfold rows. rewrite frame_at by auto. unfold frame_exp_ok. rewrite Hres, He. fold ds. fold ds in He, Hres.
      assert (RB : (exists k, 1 <= k <= 14 /\ rice_bits k ds <= rice_bits 15 ds) <-> best_exponent ds <= 14).
      { rewrite best_fifteen. split; intros (k & Hk & Hc); exists k; rewrite !rice_bits_cost in * by lia; auto. }
      rewrite RB. pose proof (best_range ds). unfold exp_ok. destruct ds as [|d ds]; cbn [map].
      - split; auto. intros _ N. congruence.
      - split; [intros G; right|intros [|G] _; [discriminate|]].
        + apply G; [discriminate|reflexivity].
        + split; [lia|intros; lia]. }
    unfold safe_build. fold rows. split.
    - intros HF i j Hi Hj. apply Fr; auto. rewrite Forall_forall in HF. apply HF.
      apply in_concat. exists (nth i rows []). split; [apply nth_In; lia|]. apply nth_In.
      rewrite Forall_forall in W. rewrite (W (nth i rows [])); auto. apply nth_In. lia.
    - intros HF. apply Forall_forall. intros f Hf. apply in_concat in Hf. destruct Hf as (row & R1 & R2).
      destruct (In_nth _ _ [] R1) as (i & Hi & <-). destruct (In_nth _ _ (make_frame None []) R2) as (j & Hj & <-).
      rewrite Forall_forall in W. rewrite (W _ R1) in Hj. apply Fr; auto; try lia. apply HF; lia. }
  rewrite <- K. rewrite <- (new_codec_inv info level) by auto. split.
  - intros [c1 E]. eapply encoded_safe; eauto.
  - intros HS. destruct (encode_recording Debug info level pcms HR HS) as (c1 & E & _). eauto.
Qed.
Print Assumptions C32_debug_accepts.
(** Samples within half of full scale never trip it... *)
Theorem C32_half_scale_safe : forall p info level pcms,
  let ch := si_channels info in
  0 <= level -> recording_ok ch pcms ->
  (forall c, 0 <= c < ch -> fifteen_bits (quant_signal (inv_gain level) ch pcms c)) ->
  exists c1, encode_all p (new_codec info level) pcms = Ok c1.
Proof.
  intros p info level pcms ch Hl HR HF.
  assert (HS : safe_build p (ad_inv_scale (new_codec info level)) ch pcms).
  { rewrite new_codec_inv by auto. now apply safe_fifteen. }
  destruct (encode_recording p info level pcms HR HS) as (c1 & E & _). eauto.
Qed.
Print Assumptions C32_half_scale_safe.
(** ... and a square wave at the highest frequency does: four blocks, one channel. *)
Definition square : list (list f32) := [map f32_of_Z [1; -1; 1; -1]].
Lemma square_ok : recording_ok 1 square.
Proof. split; [lia|]. split; [vm_compute; discriminate|]. split; [|split; vm_compute; congruence]. repeat constructor. Qed.
Theorem C32_square_refuted :
  encode_all Debug (new_codec mono 0) square = Panic ArithmeticOverflow /\
  (match encode_all Release (new_codec mono 0) square with Ok _ => True | _ => False end) /\
  errors (channel_calls 0 1 square 0) 0 = [-65534].
Proof. vm_compute. auto. Qed.
Print Assumptions C32_square_refuted.
