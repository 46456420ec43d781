(** * Concrete recordings used to show that hypotheses can be met *)
From Coq Require Import ZArith List Bool Lia.
From Verif Require Import Model.Base Model.F32 Model.Sample Model.Adhoc Spec.Codec Spec.Recording Proofs.BaseFacts.
Import ListNotations.
Open Scope Z_scope.

(** [n / 1000] in single precision. *)
Definition milli (n : Z) : f32 := fdiv (f32_of_Z n) (f32_of_Z 1000).

Definition stereo : stream_info := mkInfo 48000 2.
(** Five blocks, a call with half a block, an empty call, three blocks and a half. *)
Definition demo : list (list f32) :=
  [ map milli [100; -200; 250; -300; 150; -100; 90; 65; -30; 72]; [milli 77]; [];
    map milli [-31; 50; -35; -130; -33; -182; 999] ].

(** A boolean test for [tame]. *)
Definition tameb (qs : list Z) : bool :=
  forallb (fun t => let d := nth t qs 0 - predict (nth (t - 3) qs 0) (nth (t - 2) qs 0) (nth (t - 1) qs 0) in
                    (-32767 <=? d) && (d <=? 32766)) (seq 3 (length qs - 3)).
Lemma tameb_tame qs : tameb qs = true -> tame qs.
Proof.
  unfold tameb, tame. intros H t Ht. rewrite forallb_forall in H. specialize (H t).
  rewrite in_seq in H. specialize (H ltac:(lia)). cbv zeta in H. apply andb_prop in H. lia.
Qed.

Lemma demo_ok : recording_ok 2 demo.
Proof.
  split; [lia|]. split; [vm_compute; discriminate|]. split; [|split; vm_compute; congruence].
  repeat constructor.
Qed.
(** No long gap in a recording of fewer than ten calls. *)
Lemma short_no_gap ch pcms : (length pcms <= 9)%nat -> no_long_gap ch pcms.
Proof.
  intros H a b c -> _ Hb. rewrite !app_length in H. destruct c; [constructor|]. cbn [length] in H. lia.
Qed.
Lemma demo_gap : no_long_gap 2 demo.
Proof. apply short_no_gap. cbn. lia. Qed.
Lemma demo_tame level : In level [0; 4] -> forall c, 0 <= c < 2 -> tame (quant_signal (inv_gain level) 2 demo c).
Proof.
  intros Hl c Hc. apply tameb_tame.
  assert (H : forallb (fun level => forallb (fun c => tameb (quant_signal (inv_gain level) 2 demo c)) (range 2)) [0; 4] = true)
    by (vm_compute; reflexivity).
  rewrite forallb_forall in H. specialize (H level Hl). rewrite forallb_forall in H. apply H. now apply in_range.
Qed.

(** Nine empty calls between two of three blocks, one channel. *)
Definition mono : stream_info := mkInfo 8000 1.
Definition gap_demo : list (list f32) :=
  map milli [10; 20; 30] :: repeat [] 9 ++ [map milli [40; 50; 60]].
Lemma gap_demo_ok : recording_ok 1 gap_demo.
Proof.
  split; [lia|]. split; [vm_compute; discriminate|]. split; [|split; vm_compute; congruence].
  repeat constructor.
Qed.
