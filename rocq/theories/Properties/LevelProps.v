(** * Property C81: changing the compression level between encode calls

    [stretch], [encode_stretches], [slices], [stretch_signal] and [last_level] are defined in Spec/Levels.v. *)
From Coq Require Import ZArith List Bool Lia Reals Lra.
From Flocq Require Import Core Mult_error BinarySingleNaN.
From Verif Require Import Model.Base Model.F32 Model.Noise Model.Sample Model.Adhoc Spec.Codec Spec.Recording Spec.Levels
  Proofs.BaseFacts Proofs.FloatFacts Proofs.EncodeFacts Proofs.DecodeFacts Proofs.RoundTrip Proofs.SignalFacts Proofs.LevelFacts Properties.Demo.
Import ListNotations.
Open Scope Z_scope.

Lemma quant_calls_app inv ch x : 0 < ch -> forall base y,
  quant_calls inv base ch (x ++ y) = quant_calls inv base ch x ++ quant_calls inv (base + Z.to_nat (ch * total_blocks ch x)) ch y.
Proof.
  intros Hch. induction x as [|pcm x IH]; intros base y; cbn [app quant_calls].
  - unfold total_blocks. cbn. now rewrite Z.mul_0_r, Nat.add_0_r.
  - rewrite IH. cbn [app]. f_equal. f_equal. f_equal. assert (0 <= zlen pcm / ch) by (apply Z.div_pos; [apply zlen_nonneg|lia]).
    pose proof (total_blocks_nonneg ch x Hch). unfold total_blocks in *. cbn [map fold_right]. nia.
Qed.
Lemma total_blocks_app ch x y : total_blocks ch (x ++ y) = total_blocks ch x + total_blocks ch y.
Proof. unfold total_blocks. induction x as [|a x IH]; cbn [app map fold_right]; [reflexivity|]. rewrite IH. lia. Qed.
Lemma quant_stretches_app ch x : 0 < ch -> forall base y,
  quant_stretches base ch (x ++ y) = quant_stretches base ch x ++ quant_stretches (base + Z.to_nat (ch * total_blocks ch (slices x))) ch y.
Proof.
  intros Hch. induction x as [|[level pcms] x IH]; intros base y; cbn [app quant_stretches slices flat_map snd].
  - unfold total_blocks. cbn. now rewrite Z.mul_0_r, Nat.add_0_r.
  - rewrite IH, <- app_assoc. f_equal. f_equal. f_equal. fold (slices x). rewrite total_blocks_app.
    pose proof (total_blocks_nonneg ch pcms Hch). pose proof (total_blocks_nonneg ch (slices x) Hch). nia.
Qed.
(** Channel [c] of some quantised calls. *)
Definition channel (c : Z) (calls : list (list (list Z))) : list Z := flat_map (fun call => nth (Z.to_nat c) call []) calls.
Lemma length_channel ch pcms calls c : 0 < ch -> 0 <= c < ch -> Forall2 (fun pcm call => shaped ch (zlen pcm / ch) call) pcms calls ->
  length (channel c calls) = Z.to_nat (total_blocks ch pcms).
Proof.
  intros Hch Hc H. unfold channel, total_blocks. induction H as [|pcm call pcms calls [H1 H2] H IH]; [reflexivity|].
  cbn [flat_map map fold_right]. rewrite app_length, IH. rewrite Forall_forall in H2.
  destruct (H2 (nth (Z.to_nat c) call [])) as [HL _]; [apply nth_In; unfold zlen in H1; lia|].
  pose proof (total_blocks_nonneg ch pcms Hch) as N. unfold total_blocks in N. unfold zlen in *. lia.
Qed.

(** ** Gains are exact *)
Section Gain.
Open Scope R_scope.
Lemma restore_fin q : (-32767 <= q <= 32767)%Z -> fin (restore q) /\ Rabs (val (restore q)) <= 1.
Proof.
  intros Hq. change (restore q) with (normalize_sample q). pose proof (normalize_unit q Hq). destruct (normalize_R q ltac:(lia)) as [F _].
  split; [exact F|]. apply Rabs_le. lra.
Qed.
Lemma gain_exact level q : (0 <= level)%Z -> (-32767 <= q <= 32767)%Z ->
  is_finite (fmul (restore q) (gain level)) = true /\
  B2R (fmul (restore q) (gain level)) = B2R (restore q) * IZR (2 ^ Z.min level 10).
Proof.
  intros Hl Hq. destruct (restore_fin q Hq) as [Fr Br]. destruct (gain_R level Hl) as (Fg & Vg & _).
  set (k := Z.min level 10) in *. assert (Hk : (0 <= k <= 10)%Z) by lia. destruct (bpow_small k Hk) as [Bk Ek].
  destruct (fmul_R (restore q) (gain level) 11 Fr Fg) as [F V]; [lia| |].
  { rewrite Vg, Rabs_mult, (Rabs_pos_eq (bpow radix2 k)) by lra. change (bpow radix2 11) with 2048.
    pose proof (Rabs_pos (val (restore q))). nra. }
  split; [exact F|]. fold (val (fmul (restore q) (gain level))). rewrite V, Vg, Ek. fold (val (restore q)).
  apply round_generic; [apply valid_rnd_N|].
  apply (mult_bpow_pos_exact_FLT radix2 (-149) 24 (val (restore q)) k); [|lia].
  exact (val_format (restore q)).
Qed.
End Gain.

(** [x] is [y] with the gain of level [b] in place of the gain of level [a]: two to the [b - a] times as loud. *)
Definition rescaled (a b : Z) (x y : f32) : Prop :=
  is_finite x = true /\ (B2R x * IZR (2 ^ Z.min a 10) = B2R y * IZR (2 ^ Z.min b 10))%R.

(** ** C81 *)
(** A recording made of stretches at different levels is played at the last level set.  Every stretch comes back as that
    stretch of a recording made at the stretch's level throughout, rescaled; [decoded_signal] is what such a recording
    returns by C06. *)
Theorem C81_level_changes : forall p info ss,
  let ch := si_channels info in
  ss <> [] -> Forall (fun s => 0 <= fst s) ss -> recording_ok ch (slices ss) -> no_long_gap ch (slices ss) ->
  (forall c, 0 <= c < ch -> tame (stretch_signal ch ss c)) ->
  exists c1 out, encode_stretches p (ad_set_info ad_new info) ss = Ok c1 /\
    zlen out = ch * total_blocks ch (slices ss) /\
    (forall bufs, exists c2 rs, decode_all p (ad_init c1) bufs = Ok (c2, rs) /\
      concat (map reported rs) = firstn (Z.to_nat (room ch bufs)) out) /\
    forall before level pcms after, ss = before ++ (level, pcms) :: after ->
      let part l := firstn (Z.to_nat (ch * total_blocks ch pcms)) (skipn (Z.to_nat (ch * total_blocks ch (slices before))) l) in
      Forall2 (rescaled level (last_level ss)) (part out) (part (decoded_signal level ch (slices ss))).
Proof.
  intros p info ss ch Hne HL HR HG HT. assert (Hch : 0 < ch) by apply HR.
  destruct (stretches_play p info ss Hne HL HR HG HT) as (c1 & E & H). fold ch in H.
  exists c1, (stretch_output ch ss). split; [exact E|]. split.
  { unfold stretch_output, zlen. rewrite interleave_len, map_length, length_range. pose proof (total_blocks_nonneg ch (slices ss) Hch). nia. }
  split; [exact H|]. clear E H c1. intros before level pcms after ES part.
  set (b := last_level ss). assert (Hb : 0 <= b).
  { unfold b, last_level. destruct (nth_in_or_default (length ss - 1) (map fst ss) 0) as [Hin|Hd].
    - clear - HL Hne. induction HL as [|s ss H HL IH]; [congruence|]. destruct ss; [exact H|]. apply IH. discriminate.
    - clear - HL Hne. induction HL as [|s ss H HL IH]; [congruence|]. destruct ss; [exact H|]. apply IH. discriminate. }
  assert (Hl : 0 <= level).
  { rewrite ES in HL. apply Forall_app in HL. destruct HL as [_ HL]. now inversion HL. }
  assert (ESl : slices ss = slices before ++ pcms ++ slices after).
  { rewrite ES. unfold slices. rewrite flat_map_app. reflexivity. }
  set (m := Z.to_nat (total_blocks ch (slices before))). set (k := Z.to_nat (total_blocks ch pcms)). set (r := Z.to_nat (total_blocks ch (slices after))).
  pose proof (total_blocks_nonneg ch (slices before) Hch). pose proof (total_blocks_nonneg ch pcms Hch). pose proof (total_blocks_nonneg ch (slices after) Hch).
  assert (ET : Z.to_nat (total_blocks ch (slices ss)) = (m + (k + r))%nat).
  { rewrite ESl, !total_blocks_app. subst m k r. lia. }
  assert (EP : forall l : list f32, part l = firstn (length (range ch) * k) (skipn (length (range ch) * m) l)).
  { intros l. unfold part. rewrite length_range. f_equal; [subst k; nia|]. f_equal. subst m; nia. }
  set (base := (0 + Z.to_nat (ch * total_blocks ch (slices before)))%nat).
  set (mid := fun c => channel c (quant_calls (inv_gain level) base ch pcms)).
  assert (Lm : forall c, In c (range ch) -> length (mid c) = k).
  { intros c Hc. apply in_range in Hc. apply (length_channel ch pcms); auto. now apply calls_shaped. }
  (* both signals *)
  assert (E1 : exists f h, (forall c, In c (range ch) -> length (f c) = m) /\ forall c, stretch_signal ch ss c = f c ++ mid c ++ h c).
  { eexists (fun c => channel c (quant_stretches 0 ch before)), (fun c => channel c _). split.
    - intros c Hc. apply in_range in Hc. apply (length_channel ch (slices before)); auto. now apply stretches_shaped.
    - intros c. unfold stretch_signal. rewrite ES, quant_stretches_app by auto. fold base. cbn [quant_stretches].
      rewrite !flat_map_app. reflexivity. }
  assert (E2 : exists f h, (forall c, In c (range ch) -> length (f c) = m) /\ forall c, quant_signal (inv_gain level) ch (slices ss) c = f c ++ mid c ++ h c).
  { eexists (fun c => channel c (quant_calls (inv_gain level) 0 ch (slices before))), (fun c => channel c _). split.
    - intros c Hc. apply in_range in Hc. apply (length_channel ch (slices before)); auto. now apply calls_shaped.
    - intros c. unfold quant_signal. rewrite ESl, quant_calls_app by auto. fold base. rewrite quant_calls_app by auto.
      rewrite !flat_map_app. reflexivity. }
  destruct E1 as (f1' & h1 & L1 & E1). destruct E2 as (f2' & h2 & L2 & E2).
  rewrite !EP. unfold stretch_output, decoded_signal, output_of. fold b. rewrite ET.
  set (F := fun q => fmul (restore q) (gain b)). set (G := fun q => fmul (restore q) (gain level)).
  rewrite (map_ext _ (fun c => map F (f1' c) ++ map F (mid c) ++ map F (h1 c))) by (intros c; rewrite E1, !map_app; reflexivity).
  rewrite (map_ext (fun c => map (fun x => fmul x (gain level)) _) (fun c => map G (f2' c) ++ map G (mid c) ++ map G (h2 c)))
    by (intros c; rewrite map_map, E2, !map_app; reflexivity).
  rewrite (interleave_part _ (fun c => map F (f1' c)) (fun c => map F (mid c)) (fun c => map F (h1 c)))
    by (intros c Hc; rewrite !map_length; auto).
  rewrite (interleave_part _ (fun c => map G (f2' c)) (fun c => map G (mid c)) (fun c => map G (h2 c)))
    by (intros c Hc; rewrite !map_length; auto).
  rewrite <- (map_map mid (map F)), <- (map_map mid (map G)).
  assert (LF : Forall (fun x => length x = k) (map mid (range ch))).
  { apply Forall_map. apply Forall_forall. exact Lm. }
  rewrite <- (map_interleave F 0 (f32_of_Z 0)), <- (map_interleave G 0 (f32_of_Z 0)) by exact LF.
  assert (QR : Forall (fun q => -32767 <= q <= 32767) (interleave 0 k (map mid (range ch)))).
  { assert (QM : Forall (Forall (fun q => -32767 <= q <= 32767)) (map mid (range ch))).
    { apply Forall_map. apply Forall_forall. intros c Hc. pose proof (quant_signal_range (inv_gain level) ch (slices ss) c) as Q.
      rewrite E2 in Q. apply Forall_app in Q. destruct Q as [_ Q]. now apply Forall_app in Q. }
    clear - QM. revert QM. generalize (map mid (range ch)). induction k as [|k IH]; intros ls QM; cbn [interleave]; [constructor|].
    apply Forall_app. split.
    - apply Forall_map. eapply Forall_impl; [|exact QM]. intros [|x l] Hx; cbn [hd]; [lia|now inversion Hx].
    - apply IH. apply Forall_map. eapply Forall_impl; [|exact QM]. intros [|x l] Hx; cbn [tl]; auto. now inversion Hx. }
  clear - QR Hb Hl. induction QR as [|q qs Hq QR IH]; cbn [map]; constructor; auto.
  destruct (gain_exact b q Hb Hq) as [Fb Vb]. destruct (gain_exact level q Hl Hq) as [_ Vl].
  split; [exact Fb|]. subst F G. cbv beta. rewrite Vb, Vl. ring.
Qed.
Print Assumptions C81_level_changes.

(** A level set before anything is encoded with it does not matter. *)
Theorem C81_last_setting_counts : forall p c before level level' pcms after,
  encode_stretches p c (before ++ (level, []) :: (level', pcms) :: after) = encode_stretches p c (before ++ (level', pcms) :: after).
Proof.
  intros. unfold encode_stretches. revert c. induction before as [|s before IH]; intros c; cbn [app foldM fst snd].
  - reflexivity.
  - destruct (encode_all p (ad_with_level c (fst s)) (snd s)); cbn [bind]; auto.
Qed.
Print Assumptions C81_last_setting_counts.

(** Setting a level after the last encode call rescales the whole recording. *)
Theorem C81_level_afterwards : forall p info level level' pcms,
  let ch := si_channels info in
  0 <= level -> 0 <= level' -> recording_ok ch pcms -> no_long_gap ch pcms ->
  (forall c, 0 <= c < ch -> tame (quant_signal (inv_gain level) ch pcms c)) ->
  exists c1 out, encode_all p (new_codec info level) pcms = Ok c1 /\
    (forall bufs, exists c2 rs, decode_all p (ad_init (ad_with_level c1 level')) bufs = Ok (c2, rs) /\
      concat (map reported rs) = firstn (Z.to_nat (room ch bufs)) out) /\
    Forall2 (rescaled level level') out (decoded_signal level ch pcms).
Proof.
  intros p info level level' pcms ch Hl Hl' HR HG HT. set (ss := [(level, pcms); (level', [])]).
  assert (ESl : slices ss = pcms) by (unfold slices, ss; cbn; apply app_nil_r).
  destruct (C81_level_changes p info ss) as (c1 & out & E & L & H & P).
  - discriminate.
  - repeat constructor; auto.
  - now rewrite ESl.
  - now rewrite ESl.
  - fold ch. intros c Hc. unfold stretch_signal, ss. cbn [quant_stretches quant_calls app]. rewrite app_nil_r. now apply HT.
  - fold ch in H, L, P. rewrite ESl in *. unfold encode_stretches, ss in E. cbn [foldM fst snd] in E.
    unfold new_codec in *. destruct (encode_all p (ad_with_level (ad_set_info ad_new info) level) pcms) as [c0| |] eqn:E0; cbn [bind] in E; try discriminate.
    injection E as <-. exists c0, out. split; [reflexivity|]. split; [exact H|].
    specialize (P [] level pcms [(level', [])] eq_refl). cbv zeta in P. cbn [slices flat_map] in P.
    assert (E0' : total_blocks ch [] = 0) by reflexivity. rewrite E0', Z.mul_0_r in P. cbn [Z.to_nat skipn] in P.
    assert (Hch : 0 < ch) by apply HR. pose proof (total_blocks_nonneg ch pcms Hch).
    rewrite !firstn_all2 in P; [exact P| |unfold zlen in L; nia].
    unfold decoded_signal, output_of. rewrite interleave_len, map_length, length_range. nia.
Qed.
Print Assumptions C81_level_afterwards.

(** "The level can be changed at any time without changing the sound": no.  Three blocks recorded at level 0 come back twice
    as loud when the next block is recorded at level 1, and that block comes back about as loud as it was. *)
Definition fade : list stretch := [(0, [map milli [250; 250; 250]]); (1, [map milli [250]])].
Theorem C81_keeps_loudness_refuted :
  match encode_stretches Debug (ad_set_info ad_new mono) fade with
  | Ok c1 => match ad_decode Debug (ad_init c1) (repeat f0 4) with
             | Ok (_, out, n) => Some (map truncate_sample out, n)
             | _ => None
             end
  | _ => None
  end = Some ([16382; 16382; 16382; 8186], Some 4).
Proof. vm_compute. reflexivity. Qed.
Print Assumptions C81_keeps_loudness_refuted.

(** The hypotheses of [C81_level_changes] are met by the demo with the level changed twice. *)
Definition changing : list stretch := [(4, firstn 2 demo); (0, []); (2, skipn 2 demo); (7, [])].
Example C81_applies : slices changing = demo /\ Forall (fun s => 0 <= fst s) changing /\ recording_ok 2 (slices changing) /\
  no_long_gap 2 (slices changing) /\ forall c, 0 <= c < 2 -> tame (stretch_signal 2 changing c).
Proof.
  assert (E : slices changing = demo) by reflexivity. rewrite E. split; [reflexivity|]. split; [repeat constructor; cbn; lia|].
  split; [apply demo_ok|]. split; [apply demo_gap|]. intros c Hc. apply tameb_tame.
  assert (H : forallb (fun c => tameb (stretch_signal 2 changing c)) (range 2) = true) by (vm_compute; reflexivity).
  rewrite forallb_forall in H. apply H. now apply in_range.
Qed.
