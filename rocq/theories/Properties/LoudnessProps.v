(** * Property C11, continued: level 3 is not enough for full-scale signals *)
From Coq Require Import ZArith List Bool Reals Lra Lia.
From Flocq Require Import IEEE754.BinarySingleNaN.
From Verif Require Import Model.Base Model.F32 Model.Sample Model.Adhoc Spec.Codec Spec.Recording
  Proofs.BaseFacts Proofs.FloatFacts Proofs.RoundTrip Proofs.SignalFacts Properties.Demo Properties.SampleProps Properties.TrackProps.
Import ListNotations.
Open Scope Z_scope.

(** Four samples of full scale, then silence. *)
Definition burst : list f32 := [fm1; f1; fm1; f1] ++ repeat f0 44.
Lemma burst_ok : recording_ok 1 [burst] /\ no_long_gap 1 [burst].
Proof. split; [small_recording|apply short_no_gap; cbn; lia]. Qed.
Lemma burst_within : Forall (within 1) burst.
Proof.
  destruct val_f1 as [F1 V1], val_fm1 as [Fm Vm]. unfold val in *.
  assert (A : within 1 f1) by (split; [exact F1|rewrite V1; rewrite Rabs_pos_eq; lra]).
  assert (B : within 1 fm1) by (split; [exact Fm|rewrite Vm; rewrite Rabs_left; lra]).
  assert (C : within 1 f0) by (split; [reflexivity|cbn; rewrite Rabs_R0; lra]).
  unfold burst. apply Forall_app. split; [repeat (constructor; auto)|]. apply Forall_forall. intros x Hx. apply repeat_spec in Hx. now subst.
Qed.
(** At level 3 the silence after the burst comes back as more than half of full scale: the dither
    lifts one prediction error just over the 16-bit limit, and the decoder drifts away from there. *)
Theorem C11_level3_refuted : exists c1 c2 rs,
  Forall (within 1) burst /\ nth 45 burst f0 = f0 /\
  encode_all Release (new_codec mono 3) [burst] = Ok c1 /\ decode_all Release (ad_init c1) [repeat f0 48] = Ok (c2, rs) /\
  (/ 2 < Rabs (B2R (nth 45 (concat (map reported rs)) f0)))%R.
Proof.
  destruct burst_ok as [H G]. destruct (encode_release mono 3 [burst] H) as [c1 E].
  destruct (encoded_heard Release mono 3 [burst] c1 [repeat f0 48] ltac:(lia) H G E) as (c2 & rs & D & R).
  exists c1, c2, rs. split; [apply burst_within|]. split; [reflexivity|]. split; [exact E|]. split; [exact D|]. rewrite R. clear.
  set (x := nth 45 (firstn (Z.to_nat (room (si_channels mono) [repeat f0 48])) (lossy_signal 3 (si_channels mono) [burst])) f0).
  assert (Q : (is_finite x, quantise x) = (true, -16552)) by (vm_compute; reflexivity).
  clearbody x. injection Q as Fx Qx. apply Rnot_le_lt. intros L.
  pose proof (quantise_small x 0.505 Fx) as B. rewrite Qx in B. change (val x) with (B2R x) in B. cbn [Z.abs] in B.
  specialize (B ltac:(lra) ltac:(lra)). lra.
Qed.
Print Assumptions C11_level3_refuted.

(** Loud alternation meets the hypotheses of [C11_loss_by_loudness] at level 3. *)
Definition loud : list (list f32) := [map milli [990; -990; 990; -990; 990; -990; 0; 990]].
Example C11_loudness_applies : recording_ok 1 loud /\ no_long_gap 1 loud /\ Forall (Forall (within 1)) loud /\
  Forall (Forall (within (IZR (2 ^ 3) / 8 - 0.002))) loud /\ tameb (quant_signal (inv_gain 0) 1 loud 0) = false.
Proof.
  assert (B : (IZR (2 ^ 3) / 8 - 0.002 = 0.998)%R) by (change (2 ^ 3) with 8; lra). rewrite B.
  assert (W : Forall (Forall (within 0.998)) loud).
  { assert (within 0.998 (milli 990)) by milli_tac 16609444 (-24).
    assert (within 0.998 (milli (-990))) by milli_tac (-16609444) (-24).
    assert (within 0.998 (milli 0)) by milli_tac 0 (-3).
    repeat (constructor; auto). }
  split; [small_recording|]. split; [apply short_no_gap; cbn; lia|]. split; [|split; [exact W|vm_compute; reflexivity]].
  eapply Forall_impl; [|exact W]. intros l Hl. eapply Forall_impl; [|exact Hl]. intros s [F H]. split; [exact F|lra].
Qed.
