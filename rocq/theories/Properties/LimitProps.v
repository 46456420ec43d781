(** * Properties C21 and C26: reusing a codec, and encode calls with 65536 or more samples per channel *)
From Coq Require Import ZArith List Bool Lia.
From Verif Require Import Model.Base Model.F32 Model.Sample Model.BitStream Model.Frame Model.Adhoc
  Spec.Bits Spec.Codec Spec.Recording Spec.Frames
  Proofs.BaseFacts Proofs.Rice Proofs.FrameFacts Proofs.EncodeFacts Proofs.DecodeFacts Proofs.RoundTrip Proofs.AnyState Proofs.Oversize
  Properties.Demo.
Import ListNotations.
Open Scope Z_scope.

(** ** C26: the stored length of a call is its length modulo 65536 *)
(** Samples per channel the frame table accounts for. *)
Definition stored_length (ch : Z) (pcms : list (list f32)) : Z :=
  fold_right Z.add 0 (map (fun pcm => (zlen pcm / ch) mod 65536) pcms).
(** The sample count a codec reports after any sequence of calls of any lengths, and after
    any playback that follows. *)
Theorem C26_stored_length : forall p info level pcms c1,
  let ch := si_channels info in
  0 < ch -> ch * zlen pcms < 2 ^ 32 ->
  encode_all p (new_codec info level) pcms = Ok c1 ->
  ad_sample_count p c1 = Ok (stored_length ch pcms) /\
  forall ops c2, play_all p ops c1 = Ok c2 -> ad_sample_count p c2 = Ok (stored_length ch pcms).
Proof.
  intros p info level pcms c1 ch Hch Hn E.
  assert (C : ad_sample_count p c1 = Ok (stored_length ch pcms)).
  { pose proof (encode_all_sized p pcms _ c1 info [] Hch (new_sized info level)) as S. cbv zeta in S. fold ch in S.
    change (zlen (@nil Z)) with 0 in S. specialize (S ltac:(lia) E). cbn [app] in S.
    rewrite (count_sized p c1 info _ S Hch).
    - fold ch. rewrite sum_stored by auto. rewrite Z.mul_comm, Z.div_mul by lia. reflexivity.
    - rewrite zlen_stored by auto. exact Hn.
    - apply stored_range. }
  split; [exact C|]. intros ops c2 H. rewrite (same_count p c1 c2); [exact C|]. eapply play_same; eauto.
Qed.
Print Assumptions C26_stored_length.

(** ** C26: what an oversized mono call decodes to *)
(** A release build accepts the call. *)
Theorem C26_accepted : forall info level pcm,
  si_channels info = 1 -> 0 <= level -> 65539 <= zlen pcm <= 131007 ->
  exists c1, encode_all Release (new_codec info level) [pcm] = Ok c1.
Proof.
  intros info level pcm H1 Hl Hn.
  destruct (mono_encoded Release info level pcm H1 ltac:(lia)) as (c1 & _ & _ & E & _); [|eauto].
  intros _. apply exp_ok_release. pose proof (mono_range (ad_inv_scale (new_codec info level)) pcm). lia.
Qed.
Print Assumptions C26_accepted.

(** In any build that accepts it the last 65536 samples are gone: whatever the buffers, the
    codec plays as if only the samples before them had been encoded, and reports their
    number as its length. *)
Theorem C26_samples_lost : forall p info level pcm c1,
  si_channels info = 1 -> 0 <= level -> 65539 <= zlen pcm <= 131007 ->
  encode_all p (new_codec info level) [pcm] = Ok c1 ->
  let kept := firstn (Z.to_nat (zlen pcm - 65536)) pcm in
  ad_sample_count p c1 = Ok (zlen pcm - 65536) /\
  forall bufs, exists c2 rs, decode_all p (ad_init c1) bufs = Ok (c2, rs) /\
    concat (map reported rs) = firstn (Z.to_nat (room 1 bufs)) (lossy_signal level 1 [kept]) /\
    zlen (concat (map reported rs)) <= zlen pcm - 65536.
Proof.
  intros p info level pcm c1 H1 Hl Hn E kept.
  assert (Lk : zlen kept = zlen pcm - 65536) by (subst kept; rewrite zlen_firstn; lia).
  split.
  - destruct (C26_stored_length p info level [pcm] c1) as [C _]; rewrite ?H1; auto; try lia.
    { change (zlen [pcm]) with 1. rewrite pow2_32. lia. }
    rewrite C, H1. unfold stored_length. cbn [map fold_right]. f_equal. rewrite Z.div_1_r, Z.add_0_r.
    replace (zlen pcm) with (zlen pcm - 65536 + 1 * 65536) at 1 by lia. rewrite Z_mod_plus_full.
    apply Z.mod_small. lia.
  - intros bufs. pose proof (oversize_playing p info level pcm c1 H1 Hl Hn E) as HP. fold kept in HP.
    assert (TB : total_blocks 1 [kept] = zlen pcm - 65536).
    { unfold total_blocks. cbn [map fold_right]. rewrite Z.div_1_r. lia. }
    destruct (playing_decode p _ info level [kept] _ _ bufs HP) as (c2 & rs & E2 & R & _).
    { right. rewrite H1, TB. lia. }
    exists c2, rs. rewrite H1 in R. rewrite Nat.mul_0_r in R. cbn [skipn] in R.
    split; [exact E2|]. split; [exact R|]. rewrite R, zlen_firstn.
    assert (LS : zlen (lossy_signal level 1 [kept]) = 1 * total_blocks 1 [kept]) by (apply zlen_output; lia).
    rewrite TB in LS. lia.
Qed.
Print Assumptions C26_samples_lost.

(** A 100000-sample call at level 0: 34464 samples come back. *)
Example C26_applies : exists c1,
  encode_all Release (new_codec (mkInfo 8000 1) 0) [repeat f0 (Z.to_nat 100000)] = Ok c1 /\
  ad_sample_count Release c1 = Ok 34464.
Proof.
  assert (L : zlen (repeat f0 (Z.to_nat 100000)) = 100000) by (rewrite zlen_repeat; lia).
  destruct (C26_accepted (mkInfo 8000 1) 0 (repeat f0 (Z.to_nat 100000))) as (c1 & E); [reflexivity|lia|lia|].
  exists c1. split; [exact E|].
  assert (N : 65539 <= zlen (repeat f0 (Z.to_nat 100000)) <= 131007) by (rewrite L; lia).
  pose proof (proj1 (C26_samples_lost Release (mkInfo 8000 1) 0 _ c1 eq_refl ltac:(lia) N E)) as C.
  rewrite L in C. exact C.
Qed.

(** ** C21: a second recording on the same codec *)
(** After a first recording, any playback, the documented rewind and a second recording, the
    codec counts the second recording and every call of the first beyond the number of calls
    of the second: those frames are still in the table. *)
Theorem C21_stale_frames : forall p info level old new ops c1 c2 c3 c4,
  let ch := si_channels info in
  0 < ch -> ch * (zlen old + zlen new) < 2 ^ 32 ->
  encode_all p (new_codec info level) old = Ok c1 -> play_all p ops c1 = Ok c2 ->
  ad_seek p c2 (SStart 0) = Ok c3 -> encode_all p c3 new = Ok c4 ->
  ad_sample_count p c4 = Ok (stored_length ch new + stored_length ch (skipn (length new) old)).
Proof.
  intros p info level old new ops c1 c2 c3 c4 ch Hch Hn E1 E2 E3 E4.
  pose proof (zlen_nonneg old). pose proof (zlen_nonneg new).
  pose proof (encode_all_sized p old _ c1 info [] Hch (new_sized info level)) as S1. cbv zeta in S1. fold ch in S1.
  change (zlen (@nil Z)) with 0 in S1. specialize (S1 ltac:(nia) E1). cbn [app] in S1.
  pose proof (sized_same c1 c2 info _ (play_same _ _ _ _ E2) S1) as S2.
  assert (E : c3 = ad_init c2).
  { unfold ad_seek in E3. inv_bind E3. change (0 =? 0) with true in E3. now injection E3 as <-. }
  subst c3. pose proof (zlen_nonneg (stored_sizes ch old)) as Ho.
  assert (Hn' : zlen (stored_sizes ch old) + ch * zlen new < 2 ^ 32) by (rewrite zlen_stored by auto; lia).
  pose proof (encode_all_over p new _ c4 info 0 _ Hch S2 ltac:(lia) Hn' E4) as S3. clear S2. rename S3 into S2.
  fold ch in S2.
  assert (EO : over 0 (stored_sizes ch new) (stored_sizes ch old) = stored_sizes ch (new ++ skipn (length new) old)).
  { unfold over. change (Z.to_nat 0) with 0%nat. cbn [firstn app Nat.add].
    unfold stored_sizes. rewrite flat_map_app. f_equal. fold (stored_sizes ch new). clear -Hch.
    revert old; induction new as [|pcm new IH]; intros old; [reflexivity|]. destruct old as [|pcm' old]; [now rewrite skipn_nil|].
    cbn [length skipn]. rewrite <- IH. cbn [flat_map stored_sizes]. fold (stored_sizes ch new). rewrite app_length.
    rewrite skipn_app, !repeat_length, skipn_all2 by (rewrite repeat_length; lia).
    cbn [app]. f_equal. lia. }
  rewrite EO in S2.
  assert (L : zlen (stored_sizes ch (new ++ skipn (length new) old)) < 2 ^ 32).
  { rewrite zlen_stored, zlen_app, zlen_skipn by auto. unfold zlen in *. nia. }
  destruct S2 as (Hi & l & HR & _ & HM).
  assert (S3 : ad_sample_count p c4 = Ok (fold_right Z.add 0 (stored_sizes ch (new ++ skipn (length new) old)) / ch)).
  { apply count_table; auto; [|apply stored_range]. exists l. auto. }
  rewrite S3, sum_stored, Z.mul_comm, Z.div_mul by lia.
  unfold stored_length. rewrite map_app. f_equal. clear.
  induction (map _ new) as [|x xs IH]; [reflexivity|]. cbn [app fold_right]. lia.
Qed.
Print Assumptions C21_stale_frames.

Definition first_take : list (list f32) :=
  [map milli [90; -90; 80; -80; 70; -70; 90; -90; 90; -90; 90; -90; 90; -80; 33; -100;
              -33; 55; 99; -12; 40; 80; -60; 12; -12; 50; 33; -33; 22; 95; -85]].
Definition second_take : list (list f32) :=
  [map milli [10; 20; 31; 40; 50; 55; 60; 66; 70; 77; 82; 88; 92; 99]].
Definition mono : stream_info := mkInfo 8000 1.
(** Record [old], rewind, record [new], rewind, decode up to 100 samples. *)
Definition reuse (p : profile) (old new : list (list f32)) : outcome (list f32) :=
  c1 <- encode_all p (new_codec mono 0) old ;;
  c2 <- ad_seek p c1 (SStart 0) ;;
  c3 <- encode_all p c2 new ;;
  c4 <- ad_seek p c3 (SStart 0) ;;
  '(_, rs) <- decode_all p c4 [repeat f0 100] ;;
  Ok (concat (map reported rs)).
Definition values (o : outcome (list f32)) : option (list Z) :=
  match o with Ok l => Some (map quantise l) | _ => None end.
(** The samples of the second recording are damaged by what is left of the first, although
    both are one call. *)
Theorem C21_corruption_refuted : forall p, exists old new l1 l2,
  length old = 1%nat /\ length new = 1%nat /\
  values (reuse p old new) = Some l1 /\ values (reuse p [] new) = Some l2 /\ l1 <> l2.
Proof.
  intros p. exists first_take, second_take.
  exists [327; 655; 1015; 1310; 1638; 1801; 1966; 2162; 2293; 2523; 2686; 2885; 3021; 3258],
         [327; 655; 1015; 1310; 1638; 1801; 1966; 2162; 2293; 2523; 2686; 2883; 3014; 3243].
  destruct p; vm_compute; repeat split; discriminate.
Qed.
Print Assumptions C21_corruption_refuted.
(** The stale frames are played: a three-sample recording over one of two calls yields the
    second call of the old recording too. *)
Theorem C21_stale_refuted : forall p, exists old new l,
  zlen (concat new) = 3 /\ values (reuse p old new) = Some l /\ zlen l = 17.
Proof.
  intros p. exists ([map milli [10; 20; 30]] ++ second_take), [map milli [50; 60; 70]].
  eexists. split; [reflexivity|]. destruct p; (split; [vm_compute; reflexivity|reflexivity]).
Qed.
Print Assumptions C21_stale_refuted.
Example C21_applies : forall p,
  match encode_all p (new_codec mono 0) ([map milli [10; 20; 30]] ++ second_take) with
  | Ok c1 => match play_all p [Rewind; Listen (repeat f0 4)] c1 with
             | Ok c2 => match ad_seek p c2 (SStart 0) with
                        | Ok c3 => match encode_all p c3 [map milli [50; 60; 70]] with
                                   | Ok c4 => ad_sample_count p c4 = Ok 17
                                   | _ => False end
                        | _ => False end
             | _ => False end
  | _ => False end.
Proof. intros []; vm_compute; reflexivity. Qed.
