(** * Property C67: saving while a recording is being played

    [encode_all], [decode_all], [recording_ok], [lossy_signal] and the other words are in
    Spec/Recording.v, [play_all] (decode calls, rewinds and seeks) in Spec/Frames.v,
    [in_memory] in Spec/Files.v. *)
From Coq Require Import ZArith List Bool Lia.
From Flocq Require Import IEEE754.BinarySingleNaN.
From Verif Require Import Model.Base Model.F32 Model.Sample Model.Frame Model.Adhoc Model.Bincode Spec.Codec Spec.Recording Spec.Frames Spec.Files Spec.Seeking
  Proofs.BaseFacts Proofs.SeekRecording Proofs.RoundTrip Properties.Demo Properties.FileProps Properties.SeekProps.
Import ListNotations.
Open Scope Z_scope.

Lemma hear_of_decode p bufs : forall c c' rs, decode_all p c bufs = Ok (c', rs) -> hear_all p (map Listen bufs) c = Ok rs.
Proof.
  induction bufs as [|b bufs IH]; intros c c' rs E; cbn [decode_all map hear_all] in *.
  - now injection E as _ <-.
  - inv_bind E. destruct a as [[c1 o] k]. inv_bind E. destruct a as [c2 rs']. injection E as _ <-.
    cbn [hear]. rewrite Ha. cbn [bind]. rewrite (IH _ _ _ Ha0). reflexivity.
Qed.

(** ** C67: a file saved during playback *)
(** However much of the recording was played before the save, and wherever it was sought to, the
    loaded file has the whole recording: from the start, and from any block onwards. *)
Theorem C67_save_while_playing : forall p q info level pcms c1 ops c,
  let ch := si_channels info in
  0 <= level -> info_fits info -> recording_ok ch pcms -> no_long_gap ch pcms -> pcms <> [] ->
  encode_all p (new_codec info level) pcms = Ok c1 -> play_all p ops c1 = Ok c -> in_memory c ->
  exists c', ad_load q (ad_save c) = Ok (Some c') /\
    (forall r, ad_info c' = Ok info /\ ad_sample_count r c' = ad_sample_count r c) /\
    (forall bufs, exists rs, hear_all p (map Listen bufs) c' = Ok rs /\
       concat (map reported rs) = firstn (Z.to_nat (room ch bufs)) (lossy_signal level ch pcms)) /\
    (forall ms bufs, ms <> 0 -> target_block info ms <= total_blocks ch pcms ->
       exists rs, hear_all p (SeekTo (SStart ms) :: map Listen bufs) c' = Ok rs /\
       concat (map reported rs) = firstn (Z.to_nat (room ch bufs)) (heard_from level ch pcms (target_block info ms))).
Proof.
  intros p q info level pcms c1 ops c ch Hl HI HR HG Hne E HP M.
  destruct (C22_load_after_save p q info level (map Feed pcms ++ map Do ops) c HI) as (c' & L & HH & HS & _); auto.
  { unfold session. rewrite foldM_app. rewrite encode_all_session in E. unfold session in E. rewrite E. cbn [bind].
    rewrite play_session in HP. exact HP. }
  exists c'. split; [exact L|]. split; [exact HS|]. split.
  - intros bufs. destruct (C20_after_playback p info level pcms c1 ops c Hl HI HR HG E HP) as [_ HD].
    destruct (HD bufs) as (c2 & rs & E2 & R). exists rs. rewrite HH. split; [|exact R]. eapply hear_of_decode; eauto.
  - intros ms bufs Hms Ht.
    assert (HP' : play_all p (ops ++ [Rewind]) c1 = Ok (ad_init c)).
    { unfold play_all in *. rewrite foldM_app, HP. reflexivity. }
    destruct (C18_seek_any p info level pcms c1 _ _ ms Hl HI HR HG E HP' Hne Hms Ht) as (c2 & E2 & _ & HD).
    destruct (HD bufs) as (c3 & rs & E3 & R). exists rs. rewrite HH. split; [|exact R].
    cbn [hear_all hear play]. rewrite E2. cbn [bind]. rewrite (hear_of_decode _ _ _ _ _ E3). reflexivity.
Qed.
Print Assumptions C67_save_while_playing.

(** The stereo recording at 4 kHz, sought to block 4, which is played, then saved.  The files
    differ, since positions are saved too, but hold the same recording. *)
Example C67_applies : let info := mkInfo 4000 2 in
  info_fits info /\ recording_ok 2 demo /\ no_long_gap 2 demo /\ demo <> [] /\ target_block info 1 = 4 /\ total_blocks 2 demo = 8 /\
  match encode_all Debug (new_codec info 4) demo with
  | Ok c1 => match play_all Debug [Rewind; SeekTo (SStart 1); Listen (repeat f0 2)] c1 with
             | Ok c => in_memory c /\ ad_save c <> ad_save (ad_init c) /\ ad_save c <> ad_save c1 | _ => False end
  | _ => False end.
Proof.
  cbv zeta. split; [unfold info_fits, in_range_u; cbn; lia|]. split; [apply demo_ok|]. split; [apply demo_gap|].
  split; [discriminate|]. split; [vm_compute; reflexivity|]. split; [vm_compute; reflexivity|].
  vm_compute. repeat split; discriminate.
Qed.
