(** * Property C80: silence *)
From Coq Require Import ZArith List Bool Lia Reals Lra.
From Flocq Require Import Core BinarySingleNaN.
From Verif Require Import Model.Base Model.F32 Model.Noise Model.Sample Model.Adhoc Model.Bincode Model.BitStream
  Spec.Codec Spec.Recording
  Proofs.BaseFacts Proofs.FloatFacts Proofs.Predict Proofs.FrameFacts Proofs.EncodeFacts Proofs.DecodeFacts Proofs.RoundTrip Proofs.SignalFacts
  Proofs.FrameLaws Proofs.FileFacts Properties.RoundTripProps Properties.SampleProps Properties.SizeProps Properties.TargetProps.
Import ListNotations.
Open Scope Z_scope.

(** Every sample is zero (of either sign). *)
Definition silent (pcms : list (list f32)) : Prop := Forall (Forall (fun s : f32 => exists sign, s = B754_zero sign)) pcms.
(** The largest 16-bit value the dither alone makes of silence, by level. *)
Definition hiss_bound (level : Z) : Z := nth (Z.to_nat level) [0; 8; 6; 3; 1] 0.

Section Hiss.
Open Scope R_scope.
Lemma quantise_lt x b n : fin x -> Rabs (val x) <= b -> b <= 1 -> b * 32767 + / 1024 < IZR n + 1 -> (Z.abs (quantise x) <= n)%Z.
Proof.
  intros Fx Bx Hb Hn. destruct (fclamp_R x Fx) as [Fc Vc].
  assert (Bx' := Rabs_le_inv _ _ Bx).
  rewrite Rmin_right, Rmax_right in Vc by (rewrite ?Rmin_right; lra).
  destruct (scaled_R (fclamp x fm1 f1) Fc) as (Fs & Bs & Es); [rewrite Vc; lra|].
  change (quantise x) with (truncate_sample x). unfold truncate_sample. rewrite as_i16_R by (auto; lra).
  set (y := val (fmul (fclamp x fm1 f1) (f32_of_Z 32767))) in *. rewrite Vc in Es. apply Rabs_le_inv in Es.
  assert (Hy : Rabs y < IZR n + 1) by (apply Rabs_lt; lra).
  assert (Rabs (IZR (Ztrunc y)) <= Rabs y).
  { destruct (Rle_lt_dec 0 y).
    - rewrite Ztrunc_floor by auto. assert (0 <= Zfloor y)%Z by (apply Zfloor_lub; auto).
      rewrite !Rabs_pos_eq by (auto; apply IZR_le; auto). apply Zfloor_lb.
    - rewrite Ztrunc_ceil by lra. assert (Zceil y <= 0)%Z by (apply Zceil_glb; cbn; lra).
      rewrite !Rabs_left1 by (try lra; apply IZR_le; auto). pose proof (Zceil_ub y). lra. }
  apply Zlt_succ_le. apply lt_IZR. rewrite abs_IZR, succ_IZR. lra.
Qed.
Lemma silence_R level sign j : (1 <= level)%Z ->
  let x := dithered (inv_gain level) (B754_zero sign) (noise j) in
  let i := bpow radix2 (- Z.min level 10) in
  fin x /\ Rabs (val x) <= 0.0010001 * (1 - i) * i + 0.0000001.
Proof.
  intros Hl x i. destruct (gain_R level ltac:(lia)) as (_ & _ & Fi & Vi). fold i in Vi. set (inv := inv_gain level) in *.
  assert (Bi : 0 < i <= 1 / 2).
  { split; [apply bpow_gt_0|]. replace (1 / 2) with (bpow radix2 (-1)) by (cbn; lra). apply bpow_le. lia. }
  destruct (noise_bound j) as [Fn Bn]. destruct f_0_001_R as [Fc Vc].
  subst x. unfold dithered. change (flit 8589935 (-33)) with f_0_001. change (f32_of_Z 1) with f1.
  destruct (fmul_E (noise j) f_0_001 (-9) Fn Fc) as [Fm Em]; [lia| |].
  { rewrite Vc. change (bpow radix2 (-9)) with (/ 512). apply Rabs_lt. lra. }
  rewrite Vc in Em. change (bpow radix2 (-9 - 25)) with (/ 17179869184) in Em. apply Rabs_le_inv in Em.
  set (m := fmul (noise j) f_0_001) in *. clearbody m.
  destruct val_f1 as [F1 V1].
  destruct (fsub_E f1 inv 1 F1 Fi) as [Fo Eo]; [lia| |].
  { rewrite V1. change (bpow radix2 1) with 2. apply Rabs_lt. lra. }
  rewrite V1, Vi in Eo. change (bpow radix2 (1 - 25)) with (/ 16777216) in Eo. apply Rabs_le_inv in Eo.
  set (o := fsub f1 inv) in *. clearbody o.
  assert (Bm : Rabs (val m) <= 0.0010001) by (apply Rabs_le; lra).
  assert (Bo : Rabs (val o) <= 1 - i + 0.0000001) by (apply Rabs_le; lra).
  assert (Bmo : Rabs (val m * val o) <= 0.0010001 * (1 - i + 0.0000001)).
  { rewrite Rabs_mult. pose proof (Rabs_pos (val m)). pose proof (Rabs_pos (val o)). nra. }
  destruct (fmul_E m o (-9) Fm Fo) as [Fd Ed]; [lia| |].
  { change (bpow radix2 (-9)) with (/ 512). lra. }
  change (bpow radix2 (-9 - 25)) with (/ 17179869184) in Ed. apply Rabs_le_inv in Ed. apply Rabs_le_inv in Bmo.
  set (d := fmul m o) in *. clearbody d.
  destruct (fadd_E (B754_zero sign) d (-9) ltac:(reflexivity) Fd) as [Fa Ea]; [lia| |].
  { change (val (B754_zero sign)) with 0. change (bpow radix2 (-9)) with (/ 512). apply Rabs_lt. lra. }
  change (val (B754_zero sign)) with 0 in Ea. change (bpow radix2 (-9 - 25)) with (/ 17179869184) in Ea. apply Rabs_le_inv in Ea.
  set (a := fadd (B754_zero sign) d) in *. clearbody a.
  assert (Ba : Rabs (val a) <= 0.0010001 * (1 - i) + 0.00000001) by (apply Rabs_le; lra).
  assert (Bai : Rabs (val a * val inv) <= (0.0010001 * (1 - i) + 0.00000001) * i).
  { rewrite Rabs_mult, Vi, (Rabs_pos_eq i) by lra. apply Rmult_le_compat_r; lra. }
  destruct (fmul_E a inv (-9) Fa Fi) as [Fx Ex]; [lia| |].
  { change (bpow radix2 (-9)) with (/ 512). nra. }
  change (bpow radix2 (-9 - 25)) with (/ 17179869184) in Ex. apply Rabs_le_inv in Ex. apply Rabs_le_inv in Bai.
  split; [exact Fx|]. apply Rabs_le. nra.
Qed.
Lemma hiss level sign j : (0 <= level)%Z ->
  (Z.abs (quantise (dithered (inv_gain level) (B754_zero sign) (noise j))) <= hiss_bound level)%Z.
Proof.
  intros Hl. destruct (Z.eq_dec level 0) as [->|H0].
  { destruct (noise_small j). rewrite quantise_level0 by auto. now destruct sign. }
  destruct (silence_R level sign j ltac:(lia)) as [Fx Bx].
  assert (K : exists k, (1 <= k <= 10)%Z /\ Z.min level 10 = k /\ (hiss_bound level = hiss_bound k)%Z).
  { exists (Z.min level 10). split; [lia|]. split; auto. destruct (Z.le_gt_cases level 10); [now rewrite Z.min_l by lia|].
    rewrite Z.min_r by lia. unfold hiss_bound. rewrite nth_overflow by (cbn [length]; lia). reflexivity. }
  destruct K as (k & Hk & Ek & ->). rewrite Ek in Bx. clear Ek Hl H0. revert Bx. generalize dependent (dithered (inv_gain level) (B754_zero sign) (noise j)).
  intros x Fx Bx.
  assert (C : (k = 1 \/ k = 2 \/ k = 3 \/ k = 4 \/ k = 5 \/ k = 6 \/ k = 7 \/ k = 8 \/ k = 9 \/ k = 10)%Z) by lia.
  destruct C as [->|[->|[->|[->|[->|[->|[->|[->|[->| ->]]]]]]]]];
    match goal with |- (_ <= hiss_bound ?k)%Z => let n := eval vm_compute in (hiss_bound k) in change (hiss_bound k) with n end;
    (eapply quantise_lt; [exact Fx|exact Bx|cbn; lra|cbn; lra]).
Qed.
End Hiss.

(** ** Sound *)
Lemma silent_values level ch pcms c : 0 <= level -> 0 < ch -> 0 <= c < ch -> silent pcms ->
  Forall (fun q => Z.abs q <= hiss_bound level) (quant_signal (inv_gain level) ch pcms c).
Proof.
  intros Hl Hch Hc HS. eapply Forall_impl; [|apply quant_signal_from; auto]. cbv beta. intros q (s & j & Hs & ->).
  apply in_concat in Hs. destruct Hs as (pcm & H1 & H2). unfold silent in HS. rewrite Forall_forall in HS.
  specialize (HS pcm H1). rewrite Forall_forall in HS. destruct (HS s H2) as (sign & ->). now apply hiss.
Qed.
Lemma hiss_bound_8 level : 0 <= hiss_bound level <= 8.
Proof.
  unfold hiss_bound. generalize (Z.to_nat level). intros n. do 5 (destruct n as [|n]; [cbn; lia|]). destruct n; cbn; lia.
Qed.
Lemma heard_value level q : 0 <= level <= 4 -> Z.abs q <= hiss_bound level ->
  within 0.00074 (fmul (restore q) (gain level)).
Proof.
  intros Hl Hq.
  assert (C : forall l, 0 <= l <= 4 -> forall q, - hiss_bound l <= q <= hiss_bound l ->
    Bleb (Babs (fmul (restore q) (gain l))) (flit 12415 (-24)) = true).
  { clear. intros l Hl q Hq.
    assert (T : forallb (fun l => forallb (fun k => let q := k - 8 in
       if Z.abs q <=? hiss_bound l then Bleb (Babs (fmul (restore q) (gain l))) (flit 12415 (-24)) else true) (range 17)) (range 5) = true)
      by (vm_compute; reflexivity).
    rewrite forallb_forall in T. specialize (T l ltac:(apply in_range; lia)). rewrite forallb_forall in T.
    specialize (T (q + 8)). pose proof (hiss_bound_8 l). specialize (T ltac:(apply in_range; lia)). cbv beta zeta in T.
    replace (q + 8 - 8) with q in T by lia. replace (Z.abs q <=? hiss_bound l) with true in T by (symmetry; apply Z.leb_le; lia).
    exact T. }
  specialize (C level Hl q ltac:(lia)).
  destruct (flit_R 12415 (-24)) as [Ff Vf]; [lia|lia| |].
  { eapply Rlt_trans; [|apply (bpow_lt radix2 1 127); lia]. change (bpow radix2 1) with 2%R. unfold F2R. cbn. rewrite Rabs_pos_eq; lra. }
  assert (Fx : is_finite (fmul (restore q) (gain level)) = true).
  { destruct (fmul (restore q) (gain level)); try reflexivity; discriminate C. }
  split; [exact Fx|]. rewrite Bleb_correct in C by (rewrite ?is_finite_Babs; auto).
  rewrite B2R_Babs in C.
  destruct (Rle_bool_spec (Rabs (B2R (fmul (restore q) (gain level)))) (B2R (flit 12415 (-24)))) as [C'|]; [clear C; rename C' into C|discriminate C].
  unfold val in Vf. rewrite Vf in C. unfold F2R in C. cbn in C. lra.
Qed.

Theorem C80_silence : forall p info level pcms,
  let ch := si_channels info in
  0 <= level -> recording_ok ch pcms -> no_long_gap ch pcms -> silent pcms ->
  exists c1 out, encode_all p (new_codec info level) pcms = Ok c1 /\
    length out = length (flat_map (whole ch) pcms) /\
    (forall bufs, exists c2 rs, decode_all p (ad_init c1) bufs = Ok (c2, rs) /\
      concat (map reported rs) = firstn (Z.to_nat (room ch bufs)) out) /\
    (level = 0 \/ 5 <= level -> Forall (within 0) out) /\
    (1 <= level <= 4 -> Forall (within 0.00074) out /\ (pcms <> [] -> ~ within 0 (hd f0 out))).
Proof.
  intros p info level pcms ch Hl HR HG HS. assert (Hch : 0 < ch) by apply HR.
  assert (HT : forall c, 0 <= c < ch -> tame (quant_signal (inv_gain level) ch pcms c)).
  { intros c Hc. apply smooth_tame; [apply quant_signal_range|]. apply small_smooth.
    eapply Forall_impl; [|apply silent_values; eauto]. cbv beta. intros q Hq. pose proof (hiss_bound_8 level). lia. }
  destruct (C06_round_trip p info level pcms Hl HR HG HT) as (c1 & E & H). fold ch in H.
  exists c1, (decoded_signal level ch pcms). split; [exact E|].
  pose proof (decoded_heard level ch pcms Hch) as HH. split; [clear - HH; induction HH; cbn [length]; congruence|]. split; [exact H|].
  assert (HI : Forall (fun x => exists q, Z.abs q <= hiss_bound level /\ x = fmul (restore q) (gain level)) (decoded_signal level ch pcms)).
  { assert (HZ : Forall (fun s => exists sign, s = B754_zero sign) (flat_map (whole ch) pcms)).
    { apply Forall_forall. intros s Hs. apply in_flat_map in Hs. destruct Hs as (pcm & H1 & H2).
      unfold silent in HS. rewrite Forall_forall in HS. specialize (HS pcm H1). rewrite Forall_forall in HS. apply HS.
      unfold whole in H2. rewrite <- (firstn_skipn (Z.to_nat (ch * (zlen pcm / ch))) pcm). apply in_or_app. now left. }
    clear - HH HZ Hl. induction HH as [|o s l l' (j & ->) HH IH]; constructor; inversion HZ as [|? ? (sign & ->) HZ']; subst; auto.
    eexists. split; [|reflexivity]. now apply hiss. }
  split.
  - intros HL. assert (E0 : hiss_bound level = 0).
    { destruct HL as [->|HL]; [reflexivity|]. unfold hiss_bound. apply nth_overflow. cbn [length]. lia. }
    eapply Forall_impl; [|exact HI]. cbv beta. intros x (q & Hq & ->). assert (q = 0) by lia. subst q.
    assert (F0 : fin (restore 0) /\ val (restore 0) = 0%R).
    { change (restore 0) with (@B754_zero 24 128 false). split; reflexivity. }
    destruct F0 as [F0 V0]. destruct (gain_R level Hl) as (Fg & _).
    destruct (fmul_R (restore 0) (gain level) 1 F0 Fg) as [F V]; [lia| |].
    { rewrite V0, Rmult_0_l, Rabs_R0. apply bpow_gt_0. }
    split; [exact F|]. change (B2R (fmul (restore 0) (gain level))) with (val (fmul (restore 0) (gain level))).
    rewrite V, V0, Rmult_0_l, round_0, Rabs_R0 by apply valid_rnd_N. lra.
  - intros HL. split.
    + eapply Forall_impl; [|exact HI]. cbv beta. intros x (q & Hq & ->). apply heard_value; auto. lia.
    + intros Hne. destruct pcms as [|pcm pcms]; [now destruct Hne|]. destruct HR as (_ & H3 & _). clear - H3 HS HL Hch.
      assert (Hn : 1 <= zlen pcm / ch) by (apply Z.div_le_lower_bound; lia).
      unfold decoded_signal, output_of.
      replace (Z.to_nat (total_blocks ch (pcm :: pcms))) with (S (Z.to_nat (total_blocks ch (pcm :: pcms) - 1))).
      2: { pose proof (total_blocks_nonneg ch pcms Hch). unfold total_blocks in *. cbn [map fold_right] in *. lia. }
      cbn [interleave]. replace (range ch) with (range (ch - 1 + 1)) by (f_equal; lia). rewrite range_shift by lia.
      cbn [map app hd]. unfold quant_signal. cbn [quant_calls flat_map].
      unfold quant_call. replace (range ch) with (range (ch - 1 + 1)) by (f_equal; lia). rewrite range_shift by lia.
      cbn [map nth Z.to_nat]. unfold quant_channel.
      replace (range (zlen pcm / ch)) with (range (zlen pcm / ch - 1 + 1)) by (f_equal; lia). rewrite range_shift by lia.
      cbn [map app hd]. unfold preprocessed. replace (0 * ch + 0) with 0 by lia. replace (0 * (zlen pcm / ch) + 0) with 0 by lia.
      cbn [Z.to_nat Nat.add]. destruct pcm as [|s pcm]; [change (zlen (@nil f32)) with 0 in H3; lia|]. cbn [nth].
      inversion HS as [|? ? HS1 _]; subst. inversion HS1 as [|? ? (sign & ->) _]; subst.
      intros [_ B]. assert (B' := Rabs_le_inv _ _ B).
      assert (C : (level = 1 \/ level = 2 \/ level = 3 \/ level = 4)) by lia. 
      assert (V : B2R (fmul (restore (quantise (dithered (inv_gain level) (B754_zero sign) (noise 0)))) (gain level)) <> 0%R); [|lra].
      assert (S : match fmul (restore (quantise (dithered (inv_gain level) (B754_zero sign) (noise 0)))) (gain level) with B754_finite _ _ _ _ => True | _ => False end).
      { destruct C as [->|[->|[->| ->]]], sign; vm_compute; exact I. }
      destruct (fmul _ _) as [| | |b m e Hb]; try contradiction. cbn [B2R]. intros Hz. apply eq_0_F2R in Hz. now destruct b.
Qed.
Print Assumptions C80_silence.

(** ** Size *)
Lemma cost_zeros k n : 1 <= k -> cost k (repeat 0 n) = (k + 2) * Z.of_nat n.
Proof.
  intros Hk. induction n as [|n IH]; [cbn [repeat]; rewrite cost_nil; lia|]. cbn [repeat]. rewrite cost_cons, IH. change (Z.abs 0) with 0. rewrite Z.div_0_l; [lia|].
  assert (0 < 2 ^ k) by (apply Z.pow_pos_nonneg; lia). lia.
Qed.
Lemma make_frame_zeros st n : (st = None \/ st = Some (0, 0, 0)) ->
  zlen (fr_bits (make_frame st (repeat 0 n))) <= 3 * Z.of_nat n + (if st then 0 else 39).
Proof.
  intros Hs. pose proof (make_frame_e st (repeat 0 n)) as He. rewrite zlen_fr_bits by lia. clear He.
  assert (R0 : forall n, residuals (0, 0, 0) (repeat 0 n) = repeat 0 n).
  { clear. intros n. unfold residuals. rewrite diffs_silence. induction n; cbn [repeat map]; [reflexivity|]. now rewrite IHn. }
  destruct Hs as [-> | ->]; cbn [make_frame fr_raw fr_res fr_e].
  - assert (E0 : (nth 0 (repeat 0 n) 0, nth 1 (repeat 0 n) 0, nth 2 (repeat 0 n) 0) = (0, 0, 0)) by now rewrite !nth_repeat.
    rewrite E0. assert (ES : skipn 3 (repeat 0 n) = repeat 0 (n - 3)).
    { destruct n as [|[|[|n]]]; try reflexivity. cbn [repeat skipn]. f_equal. lia. }
    rewrite ES, R0, diffs_silence. pose proof (best_optimal (repeat 0 (n - 3)) 1 ltac:(lia)) as B. rewrite (cost_zeros 1) in B by lia.
    unfold zlen. rewrite firstn_length, repeat_length. cbv iota. lia.
  - rewrite R0, diffs_silence. pose proof (best_optimal (repeat 0 n) 1 ltac:(lia)) as B. rewrite (cost_zeros 1) in B by lia.
    change (zlen (@nil Z)) with 0. cbv iota. lia.
Qed.
Definition mute (st : option hist) : Prop := st = None \/ st = Some (0, 0, 0).
Lemma row_zeros sts n call : Forall mute sts -> length sts = length call -> Forall (eq (repeat 0 n)) call ->
  zlen (flat_map fr_bits (make_row sts call)) <= 3 * Z.of_nat n * zlen call + 39 * firsts sts.
Proof.
  unfold make_row, firsts. intros HM. revert call. induction HM as [|st sts Hm HM IH]; intros [|qs call] HL HF; cbn [zipw flat_map filter]; try discriminate.
  - change (zlen (@nil bool)) with 0. change (zlen (@nil (list Z))) with 0. change (zlen (@nil (option hist))) with 0. lia.
  - inversion HF as [|? ? Hq HF']; subst. rewrite zlen_app, zlen_cons. specialize (IH call ltac:(cbn in HL; lia) HF').
    pose proof (make_frame_zeros st n Hm) as B. destruct st as [t|]; rewrite ?zlen_cons; lia.
Qed.
Lemma next_mute sts call n : Forall mute sts -> Forall (eq (repeat 0 n)) call -> Forall mute (next_sts sts call).
Proof.
  intros HM. revert call. unfold next_sts. induction HM as [|st sts Hm HM IH]; intros [|qs call] HF; cbn [zipw]; constructor; auto.
  - inversion HF as [|? ? <- _]; subst. right.
    assert (FS : forall n, fold_left shift (repeat 0 n) (0, 0, 0) = (0, 0, 0)) by (clear; induction n; auto).
    unfold next_hist. destruct Hm as [-> | ->]; now rewrite FS.
  - apply IH. now inversion HF.
Qed.

Lemma quiet_call level base ch (pcm : list f32) : 0 <= level -> hiss_bound level = 0 -> 0 < ch -> Forall (fun s : f32 => exists sign, s = B754_zero sign) pcm ->
  Forall (eq (repeat 0 (Z.to_nat (zlen pcm / ch)))) (quant_call (inv_gain level) base ch pcm).
Proof.
  intros Hl H0 Hch HS. unfold quant_call. apply Forall_forall. intros qs Hq. apply in_map_iff in Hq. destruct Hq as (c & <- & _).
  unfold quant_channel. set (n := zlen pcm / ch).
  assert (E : forall ks, map (fun k => quantise (preprocessed (inv_gain level) base ch n pcm c k)) ks = repeat 0 (length ks)).
  { induction ks as [|k ks IH]; cbn [map length repeat]; [reflexivity|]. f_equal; auto. unfold preprocessed.
    assert (Z0 : exists sign, nth (Z.to_nat (k * ch + c)) pcm (f32_of_Z 0) = B754_zero sign).
    { destruct (nth_in_or_default (Z.to_nat (k * ch + c)) pcm (f32_of_Z 0)) as [Hin| ->]; [|exists false; reflexivity].
      rewrite Forall_forall in HS. now apply HS. }
    destruct Z0 as (sign & ->). pose proof (hiss level sign (base + Z.to_nat (c * n + k)) Hl). lia. }
  rewrite E, length_range. reflexivity.
Qed.
Lemma rows_zeros level base ch pcms sts : 0 <= level -> hiss_bound level = 0 -> 0 < ch -> zlen sts = ch -> silent pcms -> Forall mute sts ->
  zlen (flat_map fr_bits (concat (make_rows sts (quant_calls (inv_gain level) base ch pcms))))
    <= 3 * total_samples ch pcms + match pcms with [] => 0 | _ => 39 * firsts sts end.
Proof.
  intros Hl H0 Hch. revert sts base; induction pcms as [|pcm pcms IH]; intros sts base Hs HS HM; cbn [quant_calls make_rows concat total_samples].
  - change (zlen (flat_map fr_bits [])) with 0. lia.
  - inversion HS as [|? ? HS1 HS2]; subst. rewrite flat_map_app, zlen_app.
    assert (L : length sts = length (quant_call (inv_gain level) base (zlen sts) pcm)) by (rewrite length_quant_call; unfold zlen; lia).
    set (ch := zlen sts) in *.
    assert (LC : zlen (quant_call (inv_gain level) base ch pcm) = ch) by (unfold zlen; rewrite length_quant_call; lia).
    pose proof (quiet_call level base ch pcm Hl H0 Hch HS1) as Q.
    pose proof (row_zeros sts _ _ HM L Q) as B. rewrite LC in B.
    assert (0 <= zlen pcm / ch) by (apply Z.div_pos; [apply zlen_nonneg|lia]). rewrite Z2Nat.id in B by auto.
    specialize (IH (next_sts sts (quant_call (inv_gain level) base ch pcm)) (base + Z.to_nat (ch * (zlen pcm / ch)))%nat).
    rewrite no_firsts in IH by apply next_sts_some.
    specialize (IH ltac:(unfold ch, zlen; rewrite length_next_sts; auto) HS2 ltac:(eapply next_mute; eauto)).
    destruct pcms; nia.
Qed.
Lemma stream_chunks p info level pcms c :
  let ch := si_channels info in
  0 <= level -> recording_ok ch pcms -> encode_all p (new_codec info level) pcms = Ok c ->
  zlen (bs_binary (as_stream (ad_stream c))) <= zlen (flat_map fr_bits (concat (frames_of (inv_gain level) ch pcms))) / 128 + 2.
Proof.
  intros ch Hl HR E. pose proof (encoded_safe p info level pcms c HR E) as HS.
  destruct (encode_recording p info level pcms HR HS) as (c1' & E' & _ & R & _).
  rewrite E in E'. injection E' as <-. fold ch in R. rewrite new_codec_inv in R by auto.
  destruct R as [Hi _ _ _ HB _ _]. destruct HB as (_ & _ & _ & _ & HL).
  set (bits := zlen (flat_map fr_bits _)) in *. assert (0 <= bits) by apply zlen_nonneg.
  assert (0 <= bits / 128) by (apply Z.div_pos; lia). lia.
Qed.

(** No recording in as many channels and encode calls of the same lengths has a file more than 32 bytes smaller. *)
Theorem C80_smallest_file : forall p p' info info' level level' pcms pcms' c c',
  let ch := si_channels info in
  level = 0 \/ 5 <= level -> 0 <= level' -> recording_ok ch pcms -> silent pcms -> pcms <> [] ->
  si_channels info' = ch -> map (@length f32) pcms' = map (@length f32) pcms ->
  encode_all p (new_codec info level) pcms = Ok c -> encode_all p' (new_codec info' level') pcms' = Ok c' ->
  zlen (ad_save c) <= zlen (ad_save c') + 32.
Proof.
  intros p p' info info' level level' pcms pcms' c c' ch HL Hl' HR HS Hne Hc HE E E'.
  assert (E0 : hiss_bound level = 0).
  { destruct HL as [->|HL]; [reflexivity|]. unfold hiss_bound. apply nth_overflow. cbn [length]. lia. }
  assert (Hl : 0 <= level) by lia. clear HL. assert (Hch : 0 < ch) by apply HR.
  assert (HZ : map (@zlen f32) pcms' = map (@zlen f32) pcms).
  { unfold zlen. rewrite <- !(map_map (@length f32) Z.of_nat). now rewrite HE. }
  assert (HZl : zlen pcms' = zlen pcms) by (unfold zlen; rewrite <- (map_length (@length f32) pcms'), HE, map_length; reflexivity).
  assert (HC : zlen (concat pcms') = zlen (concat pcms)).
  { assert (C : forall l : list (list f32), zlen (concat l) = fold_right Z.add 0 (map (@zlen f32) l)).
    { induction l as [|x l IH]; [reflexivity|]. cbn [concat map fold_right]. now rewrite zlen_app, IH. }
    now rewrite !C, HZ. }
  assert (HB : total_blocks ch pcms' = total_blocks ch pcms).
  { unfold total_blocks. rewrite <- !(map_map (@zlen f32) (fun x => x / ch)). now rewrite HZ. }
  assert (HR' : recording_ok (si_channels info') pcms').
  { rewrite Hc. destruct HR as (R1 & R2 & R3 & R4 & R5). split; auto. split.
    - destruct pcms as [|a l], pcms' as [|a' l']; try discriminate HZ; auto. injection HZ as Ha _. now rewrite Ha.
    - split; [|split; [now rewrite HZl|now rewrite HC]]. clear - R3 HZ. revert pcms' HZ.
      induction R3; intros [|a' l'] HZ; try discriminate HZ; constructor; injection HZ as Ha HZ; [now rewrite Ha|auto]. }
  assert (Hne' : pcms' <> []) by (intros ->; destruct pcms; [now apply Hne|discriminate HZ]).
  destruct (recording_vectors p info level pcms c Hl HR Hne E) as (_ & _ & _ & _ & S1).
  destruct (recording_vectors p' info' level' pcms' c' Hl' HR' Hne' E') as (B' & _ & _ & _ & S2).
  fold ch in S1. rewrite Hc, HB in B'. rewrite Hc, HZl in S2.
  pose proof (stream_chunks p info level pcms c Hl HR E) as B. fold ch in B.
  assert (L0 : zlen (repeat (@None hist) (Z.to_nat ch)) = ch) by (rewrite zlen_repeat; lia).
  pose proof (rows_zeros level 0 ch pcms _ Hl E0 Hch L0 HS) as Q.
  specialize (Q ltac:(apply Forall_forall; intros st Hst; apply repeat_spec in Hst; now left)).
  fold (frames_of (inv_gain level) ch pcms) in Q. rewrite total_samples_blocks, firsts_new, Z2Nat.id in Q by lia.
  set (bits := zlen (flat_map fr_bits _)) in *. assert (Q' : bits <= 3 * (ch * total_blocks ch pcms) + 39 * ch) by (destruct pcms; [now destruct Hne|lia]).
  assert (128 * (bits / 128) <= bits) by (apply Z.mul_div_le; lia).
  lia.
Qed.
Print Assumptions C80_smallest_file.
(** A higher level does not always make a smaller file: silence takes more at level 1 than at level 0. *)
Theorem C80_higher_level_smaller_refuted :
  ~ forall p info a b pcms ca cb, 0 <= a <= b -> recording_ok (si_channels info) pcms ->
      encode_all p (new_codec info a) pcms = Ok ca -> encode_all p (new_codec info b) pcms = Ok cb ->
      zlen (ad_save cb) <= zlen (ad_save ca).
Proof.
  intros H. set (info := mkInfo 8000 1). set (pcms := [repeat f0 64]).
  assert (HR : recording_ok 1 pcms).
  { subst pcms. split; [lia|]. split; [cbn; lia|]. split; [repeat constructor; cbn; lia|]. cbn; lia. }
  assert (E0 : match encode_all Release (new_codec info 0) pcms with Ok c => zlen (ad_save c) | _ => -1 end = 190) by (vm_compute; reflexivity).
  assert (E1 : match encode_all Release (new_codec info 1) pcms with Ok c => zlen (ad_save c) | _ => -1 end = 222) by (vm_compute; reflexivity).
  specialize (H Release info 0 1 pcms).
  destruct (encode_all Release (new_codec info 0) pcms) as [ca| |]; try discriminate E0.
  destruct (encode_all Release (new_codec info 1) pcms) as [cb| |]; try discriminate E1.
  specialize (H ca cb ltac:(lia) HR eq_refl eq_refl). lia.
Qed.
Print Assumptions C80_higher_level_smaller_refuted.

(** Two calls of stereo silence, with zeros of both signs; what decoding it at levels 0 and 1 begins with. *)
Definition silence : list (list f32) := [f0 :: B754_zero true :: repeat f0 8; repeat (B754_zero true) 4].
Example C80_applies : recording_ok 2 silence /\ no_long_gap 2 silence /\ silent silence /\ silence <> [].
Proof.
  split; [|split; [|split]].
  - split; [lia|]. split; [cbn; lia|]. split; [repeat constructor; cbn; lia|]. cbn; lia.
  - intros a b c E _ Hb. exfalso. apply (f_equal (@length (list f32))) in E. rewrite !app_length in E. cbn [length silence] in E. lia.
  - unfold silent, silence. repeat constructor; try (exists false; reflexivity); exists true; reflexivity.
  - discriminate.
Qed.
Example C80_sounds : map (fun level => match encode_all Debug (new_codec (mkInfo 8000 2) level) silence with
    | Ok c => match ad_decode Debug (ad_init c) (repeat f1 6) with
              | Ok (_, out, n) => Some (map B2SF (firstn 2 out), n) | _ => None end
    | _ => None end) [0; 1; 5]
  = map (fun level => Some (map B2SF (match level with 1 => [fmul (restore 4) f2; fmul (restore (-4)) f2] | _ => [f0; f0] end), Some 6)) [0; 1; 5].
Proof. vm_compute. reflexivity. Qed.
