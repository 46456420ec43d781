(** * Properties C08, C27, C28, C30, C31: single encode and decode calls

    Unless a theorem says otherwise it holds for every codec state, reachable or not. *)
From Coq Require Import ZArith List Bool Lia.
From Flocq Require Import IEEE754.BinarySingleNaN.
From Verif Require Import Model.Base Model.F32 Model.Sample Model.BitStream Model.Frame Model.Adhoc
  Spec.Recording Spec.Frames
  Proofs.BaseFacts Proofs.FrameFacts Proofs.EncodeFacts Proofs.DecodeFacts Proofs.RoundTrip Proofs.SignalFacts Proofs.AnyState
  Properties.Demo.
Import ListNotations.
Open Scope Z_scope.

(** What a codec reports about itself. *)
Definition has_info (c : adhoc) (info : stream_info) : Prop := as_info (ad_stream c) = Some info.

Lemma decode_unfold p c info buf c' out k : has_info c info -> 0 < si_channels info ->
  ad_decode p c buf = Ok (c', out, k) ->
  exists d o, decode_loop p (si_channels info) (S (length buf)) (zlen buf / si_channels info * si_channels info)
      (ad_channels c, as_stream (ad_stream c), ad_headers c) = Ok (d, o) /\
    out = map (fun x => fmul x (ad_scale c)) (o ++ skipn (length o) buf) /\
    k = (if 0 <? zlen o then Some (zlen o) else None) /\
    zlen o <= zlen buf / si_channels info * si_channels info /\ (exists q, zlen o = q * si_channels info).
Proof.
  intros Hi Hch H. unfold ad_decode, ad_info in H. rewrite Hi in H. cbn [expect bind] in H.
  rewrite udiv_ok in H by lia. cbn [bind] in H. inv_bind H. destruct a as [[[chs s] hs] o]. exists (chs, s, hs), o.
  split; [exact Ha|]. injection H as _ <- <-. split; [reflexivity|]. split; [reflexivity|].
  eapply decode_loop_len; eauto.
  pose proof (Z.div_pos (zlen buf) (si_channels info) (zlen_nonneg _) Hch). nia.
Qed.

(** ** C08: whole blocks *)
Theorem C08_whole_blocks : forall p c info buf c' out k,
  has_info c info -> 0 < si_channels info -> ad_decode p c buf = Ok (c', out, k) ->
  zlen out = zlen buf /\
  match k with
  | None => True
  | Some n => 0 < n <= zlen buf /\ n mod si_channels info = 0
  end /\
  (zlen buf < si_channels info -> k = None /\ c' = c).
Proof.
  intros p c info buf c' out k Hi Hch H.
  destruct (decode_unfold p c info buf c' out k Hi Hch H) as (d & o & E & -> & -> & B & q & Q).
  pose proof (Z.mul_div_le (zlen buf) (si_channels info) Hch) as M.
  assert (Lo : zlen o <= zlen buf) by lia. split; [|split].
  - rewrite zlen_map, zlen_app, zlen_skipn. unfold zlen in *. lia.
  - destruct (Z.ltb_spec 0 (zlen o)); auto. split; [lia|]. rewrite Q. apply Z.mod_mul. lia.
  - intros Hs. rewrite Z.div_small in E by (split; [apply zlen_nonneg|lia]).
    cbn [decode_loop Z.mul Z.ltb Z.compare] in E. injection E as <- <-. split; [reflexivity|].
    unfold ad_decode, ad_info in H. rewrite Hi in H. cbn [expect bind] in H.
    rewrite udiv_ok in H by lia. cbn [bind] in H. rewrite Z.div_small in H by (split; [apply zlen_nonneg|lia]).
    cbn [decode_loop Z.mul Z.ltb Z.compare bind] in H. injection H as <-. destruct c as [? ? [? ?] ? ? ? ?]. reflexivity.
Qed.
Print Assumptions C08_whole_blocks.
(** Seven samples of room, two channels: six are written.  One sample of room: none. *)
Example C08_applies : forall p,
  match encode_all p (new_codec stereo 4) demo with
  | Ok c1 => match ad_decode p (ad_init c1) (repeat f0 7), ad_decode p (ad_init c1) [f0] with
             | Ok (_, out, k), Ok (_, out', k') => length out = 7%nat /\ k = Some 6 /\ k' = None
             | _, _ => False end
  | _ => False end.
Proof. intros []; vm_compute; auto. Qed.

(** ** C30: the tail of the buffer *)
(** In any session, what lies beyond the reported samples is multiplied by the gain... *)
Theorem C30_tail : forall p info level acts c buf c' out k,
  0 < si_channels info -> 0 <= level ->
  session p acts (new_codec info level) = Ok c -> ad_decode p c buf = Ok (c', out, k) ->
  let n := match k with Some n => Z.to_nat n | None => O end in
  skipn n out = map (fun x => fmul x (gain level)) (skipn n buf).
Proof.
  intros p info level acts c buf c' out k Hch Hl HS H n.
  assert (Hi : has_info c info) by (eapply session_good; [apply new_good; lia|eauto]).
  destruct (session_scale p acts _ _ HS) as (Sc & _). rewrite new_codec_scale in Sc by auto.
  destruct (decode_unfold p c info buf c' out k Hi Hch H) as (d & o & E & -> & -> & _ & _). rewrite Sc.
  assert (En : n = length o).
  { subst n. destruct (Z.ltb_spec 0 (zlen o)); unfold zlen in *; lia. }
  rewrite En, skipn_map, skipn_app, skipn_all, Nat.sub_diag. reflexivity.
Qed.
Print Assumptions C30_tail.
(** ... which leaves it alone at level 0, whatever it holds. *)
Theorem C30_tail_level0 : forall p info acts c buf c' out k,
  0 < si_channels info -> session p acts (new_codec info 0) = Ok c -> ad_decode p c buf = Ok (c', out, k) ->
  let n := match k with Some n => Z.to_nat n | None => O end in
  skipn n out = skipn n buf.
Proof.
  intros p info acts c buf c' out k Hch HS H n.
  unfold n. rewrite (C30_tail p info 0 acts c buf c' out k Hch ltac:(lia) HS H). rewrite gain_0.
  rewrite <- (map_id (skipn _ buf)) at 2. apply map_ext. exact fmul_one_eq.
Qed.
Print Assumptions C30_tail_level0.
(** At level 4 the last half of a buffer of ones becomes sixteens. *)
Example C30_applies : forall p,
  match session p (map Feed demo ++ [Do Rewind]) (new_codec stereo 4) with
  | Ok c => match ad_decode p c (repeat f1 32) with
            | Ok (_, out, k) => k = Some 16 /\ map B2SF (skipn 16 out) = map B2SF (repeat (f32_of_Z 16) 16)
            | _ => False end
  | _ => False end.
Proof. intros []; vm_compute; auto. Qed.

(** ** C27: partial blocks *)
(** A slice is encoded like its whole blocks alone, and reported in full. *)
Theorem C27_partial_blocks : forall p c info pcm,
  has_info c info -> 0 < si_channels info ->
  ad_encode p c pcm =
    ('(c', _) <- ad_encode p c (whole (si_channels info) pcm) ;; Ok (c', Some (zlen pcm))).
Proof.
  intros p c info pcm Hi Hch. unfold ad_encode, ad_info, whole. rewrite Hi. cbn [expect bind].
  set (ch := si_channels info) in *.
  pose proof (Z.mul_div_le (zlen pcm) ch Hch) as M.
  pose proof (Z.div_pos (zlen pcm) ch (zlen_nonneg _) Hch) as P.
  assert (L : zlen (firstn (Z.to_nat (ch * (zlen pcm / ch))) pcm) = ch * (zlen pcm / ch)).
  { unfold zlen at 1. rewrite firstn_length. unfold zlen in *. lia. }
  rewrite !udiv_ok by lia. rewrite L. rewrite (Z.mul_comm ch), Z.div_mul by lia. cbn [bind].
  rewrite (Z.mul_comm _ ch).
  assert (K : forall l c, (forall j, In j l -> 0 <= j < ch) ->
    foldM (encode_channel p pcm ch (zlen pcm / ch)) l c =
    foldM (encode_channel p (firstn (Z.to_nat (ch * (zlen pcm / ch))) pcm) ch (zlen pcm / ch)) l c).
  { induction l as [|j l IH]; intros c0 HL; [reflexivity|]. cbn [foldM].
    assert (Ej : encode_channel p pcm ch (zlen pcm / ch) c0 j =
                 encode_channel p (firstn (Z.to_nat (ch * (zlen pcm / ch))) pcm) ch (zlen pcm / ch) c0 j).
    { unfold encode_channel. rewrite deinterleave_whole; auto. apply HL. now left. }
    rewrite Ej. clear Ej. destruct (encode_channel _ _ _ _ _ _); cbn [bind]; auto. apply IH. intros; apply HL; now right. }
  rewrite <- K by (intros j Hj; now apply in_range).
  destruct (foldM _ _ _); cbn [bind]; auto.
Qed.
Print Assumptions C27_partial_blocks.
(** Seven samples, two channels: the last is reported but the codec is the same without it. *)
Example C27_applies : forall p, let pcm := map milli [1; 2; 3; 4; 5; 6; 7] in
  map B2SF (whole 2 pcm) = map B2SF (map milli [1; 2; 3; 4; 5; 6]) /\
  match ad_encode p (new_codec stereo 0) pcm with Ok (_, k) => k = Some 7 | _ => False end.
Proof. destruct p; vm_compute; auto. Qed.

(** ** C28: short first calls *)
Theorem C28_short_first_call : forall p info level pcm,
  0 < si_channels info -> zlen pcm < 3 * si_channels info ->
  panics (ad_encode p (new_codec info level) pcm) /\
  forall c, has_info c info -> panics (ad_encode p (ad_init c) pcm).
Proof.
  intros p info level pcm Hch Hn. split.
  - apply (short_first p _ info); auto. cbn. unfold resize. change (zlen (@nil frame_codec)) with 0.
    destruct (Z.leb_spec 0 (si_channels info)); [|lia]. cbn [app]. apply Forall_repeat. reflexivity.
  - intros c Hi. apply (short_first p _ info); auto. cbn. apply Forall_map. apply Forall_forall. reflexivity.
Qed.
Print Assumptions C28_short_first_call.
(** Later calls may have any length up to 65535 samples per channel. *)
Theorem C28_later_calls : forall info level pcm pcms,
  let ch := si_channels info in
  0 < ch -> 3 * ch <= zlen pcm -> Forall (fun pcm => zlen pcm < 65536 * ch) (pcm :: pcms) ->
  ch * zlen (pcm :: pcms) + 1 < 2 ^ 32 -> zlen (concat (pcm :: pcms)) <= 2 ^ 58 ->
  exists c1, encode_all Release (new_codec info level) (pcm :: pcms) = Ok c1.
Proof.
  intros info level pcm pcms ch Hch H3 HF Hn Hs. apply encode_release. exact (conj Hch (conj H3 (conj HF (conj Hn Hs)))).
Qed.
Print Assumptions C28_later_calls.
Example C28_applies :
  ad_encode Release (new_codec stereo 0) (map milli [1; 2; 3; 4; 5]) = Panic IndexOutOfBounds /\
  match encode_all Release (new_codec stereo 0) [map milli [1; 2; 3; 4; 5; 6]; []; [milli 1]; map milli [1; 2]] with
  | Ok _ => True | _ => False end.
Proof. vm_compute. auto. Qed.

(** ** C31: mode discipline *)
(** Right after a recording: nothing decoded, nothing consumed. *)
Theorem C31_decode_after_encode : forall p info level pcms c1 buf,
  0 <= level -> recording_ok (si_channels info) pcms -> encode_all p (new_codec info level) pcms = Ok c1 ->
  ad_decode p c1 buf = Ok (c1, map (fun x => fmul x (gain level)) buf, None).
Proof.
  intros p info level pcms c1 buf Hl HR E. pose proof (encoded_safe p info level pcms c1 HR E) as HS.
  destruct (encode_recording p info level pcms HR HS) as (c1' & E' & Se & R & M & _).
  rewrite E in E'. injection E' as <-. pose proof HR as (Hch & _).
  set (fs := concat _) in R. pose proof R as [Hi _ HC Hn _ [HH HX] _].
  assert (Hfs : zlen fs + 1 < 2 ^ 32) by apply M.
  set (d := (ad_channels c1, as_stream (ad_stream c1), ad_headers c1)).
  assert (HB : buffers_empty (ad_channels c1) = true).
  { clear -HC. unfold buffers_empty. induction HC as [|fc st chs sts [H1 _] H IH]; cbn [forallb]; auto. now rewrite H1. }
  assert (HD : foldM (decode_channel p) (range (si_channels info)) d = Ok d).
  { apply (decode_end_spec p _ _ _ fs); auto.
    - split; auto.
    - apply Forall2_len in HC. unfold zlen in *. lia. }
  assert (HA : forall fuel, buffer_audio p (si_channels info) fuel d = Ok (d, fuel)).
  { induction fuel as [|fuel IH]; [reflexivity|]. cbn [buffer_audio]. unfold d at 1. rewrite HB. rewrite HD. cbn [bind].
    rewrite IH. reflexivity. }
  unfold ad_decode, ad_info. rewrite Hi. cbn [expect bind]. rewrite udiv_ok by lia. cbn [bind].
  fold d. cbn [decode_loop]. rewrite HA. cbn [bind]. rewrite Nat.leb_refl.
  destruct (0 <? zlen buf / si_channels info * si_channels info).
  all: cbn [bind]; unfold d; change (zlen (@nil f32)) with 0; cbn [app length skipn Z.ltb Z.compare].
  all: destruct Se as (_ & Sc & _); rewrite new_codec_scale in Sc by auto; rewrite <- Sc, <- Hi.
  all: now destruct c1 as [? ? [? ?] ? ? ? ?].
Qed.
Print Assumptions C31_decode_after_encode.
(** In any session: a decode call right after an encode call delivers nothing (it may panic
    if an older recording is still in the codec). *)
Theorem C31_no_output_while_encoding : forall p info level acts c0 pcm c1 r buf c2 out k,
  0 < si_channels info -> session p acts (new_codec info level) = Ok c0 ->
  ad_encode p c0 pcm = Ok (c1, r) -> ad_decode p c1 buf = Ok (c2, out, k) -> k = None /\ c2 = c1.
Proof.
  intros p info level acts c0 pcm c1 r buf c2 out k Hch HS HE HD.
  assert (G : good info c0) by (eapply session_good; [apply new_good; lia|eauto]).
  destruct (encode_good _ _ _ _ _ _ G HE) as (_ & _ & F).
  destruct (stuck_decode p c1 buf c2 out k F HD) as (-> & _ & ->). auto.
Qed.
Print Assumptions C31_no_output_while_encoding.
(** In any session: after a decode call that delivered something, encode panics. *)
Theorem C31_encode_after_decode : forall p info level acts c0 buf c1 out n pcm,
  0 < si_channels info -> session p acts (new_codec info level) = Ok c0 ->
  ad_decode p c0 buf = Ok (c1, out, Some n) -> panics (ad_encode p c1 pcm).
Proof.
  intros p info level acts c0 buf c1 out n pcm Hch HS HD.
  assert (G : good info c0) by (eapply session_good; [apply new_good; lia|eauto]).
  destruct (decode_good _ _ _ _ _ _ _ G HD) as [G1 S]. specialize (S ltac:(discriminate)).
  apply encode_panics. intros [c2 r] HE. destruct (encode_good _ _ _ _ _ _ G1 HE) as (_ & N & _). auto.
Qed.
Print Assumptions C31_encode_after_decode.
Example C31_applies : forall p,
  match encode_all p (new_codec stereo 0) demo with
  | Ok c1 =>
      match ad_decode p c1 (repeat f0 8), ad_decode p (ad_init c1) (repeat f0 8) with
      | Ok (_, _, k), Ok (c2, _, k2) =>
          k = None /\ k2 = Some 8 /\ ad_encode p c2 (repeat f0 8) = Panic InvalidState
      | _, _ => False end
  | _ => False end.
Proof. intros []; vm_compute; auto. Qed.
(** The panic of the second theorem: rewind, encode a shorter recording over the first. *)
Example C31_reuse_panics : forall p,
  match session p (map Feed demo ++ [Do Rewind; Feed (repeat f0 8)]) (new_codec stereo 0) with
  | Ok c1 => ad_decode p c1 (repeat f0 8) = Panic InvalidState
  | _ => False end.
Proof. intros []; vm_compute; auto. Qed.
