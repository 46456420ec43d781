(** * Properties C62 and C63: what an output sample depends on

    [track ch c pcms] (Spec/Tracks.v) is channel [c] of the recording [pcms]; the words
    [encode_all], [decode_all], [reported], [total_blocks], [whole], [recording_ok],
    [no_long_gap] are in Spec/Recording.v. *)
From Coq Require Import ZArith List Bool Lia.
From Verif Require Import Model.Base Model.F32 Model.Sample Model.Adhoc Spec.Codec Spec.Recording Spec.Tracks
  Proofs.BaseFacts Proofs.EncodeFacts Proofs.RoundTrip Proofs.CliFacts Proofs.TrackFacts Properties.CliProps Properties.Demo.
Import ListNotations.
Open Scope Z_scope.

Lemma encoded_heard p info level pcms c1 bufs :
  let ch := si_channels info in
  0 <= level -> recording_ok ch pcms -> no_long_gap ch pcms ->
  encode_all p (new_codec info level) pcms = Ok c1 ->
  exists c2 rs, decode_all p (ad_init c1) bufs = Ok (c2, rs) /\
    concat (map reported rs) = firstn (Z.to_nat (room ch bufs)) (lossy_signal level ch pcms).
Proof.
  intros ch Hl HR HG E. pose proof (encoded_playing p info level pcms c1 Hl HR E) as HP. fold ch in HP.
  rewrite audible_all in HP by (auto; apply HR).
  destruct (playing_decode p _ info level pcms _ _ bufs HP) as (c2 & rs & E2 & R & _).
  { right. fold ch. lia. }
  exists c2, rs. split; [exact E2|]. rewrite R. fold ch. now rewrite Nat.mul_0_r.
Qed.
Lemma nth_firstn_any {A} (d : A) n i (l : list A) : nth i (firstn n l) d = if (i <? n)%nat then nth i l d else d.
Proof.
  revert i l. induction n; intros i l; [now destruct i|]. destruct l as [|x l]; [destruct (_ <? _)%nat; now destruct i|].
  destruct i; [reflexivity|]. cbn [firstn nth]. rewrite IHn. reflexivity.
Qed.
Lemma nth_lossy_signal level ch pcms c k : 0 <= c < ch -> (k < Z.to_nat (total_blocks ch pcms))%nat ->
  nth (k * Z.to_nat ch + Z.to_nat c) (lossy_signal level ch pcms) f0 =
    nth k (map (fun x => fmul x (gain level)) (map restore_in_range (lossy (quant_signal (inv_gain level) ch pcms c)))) f0.
Proof.
  intros Hc Hk. unfold lossy_signal, output_of.
  set (chans := map _ (range ch)). assert (L : length chans = Z.to_nat ch) by (subst chans; now rewrite map_length, length_range).
  rewrite <- L at 1. rewrite nth_interleave by (rewrite ?L; lia). f_equal. subst chans.
  set (F := fun c => map _ _). rewrite (nth_indep _ [] (F 0)) by (rewrite map_length, length_range; lia). rewrite map_nth.
  unfold F. now rewrite nth_range by lia.
Qed.

(** ** C62: no crosstalk, no look-ahead *)
(** Two recordings whose first calls have the same lengths, and whose channel [c] is the same
    for the first [n] blocks of those calls, sound the same on channel [c] for those blocks:
    the other channels, what comes later and the build do not matter. *)
Theorem C62_own_past : forall p p' info level A A' B B' c1 c1' c n,
  let ch := si_channels info in
  0 <= level -> recording_ok ch (A ++ B) -> no_long_gap ch (A ++ B) -> recording_ok ch (A' ++ B') -> no_long_gap ch (A' ++ B') ->
  encode_all p (new_codec info level) (A ++ B) = Ok c1 -> encode_all p' (new_codec info level) (A' ++ B') = Ok c1' ->
  map zlen A = map zlen A' -> 0 <= c < ch -> 0 <= n <= total_blocks ch A ->
  firstn (Z.to_nat n) (track ch c A) = firstn (Z.to_nat n) (track ch c A') ->
  forall bufs, exists c2 rs c2' rs',
    decode_all p (ad_init c1) bufs = Ok (c2, rs) /\ decode_all p' (ad_init c1') bufs = Ok (c2', rs') /\
    forall k, 0 <= k < n -> let i := Z.to_nat (k * ch + c) in
      nth_error (concat (map reported rs)) i = nth_error (concat (map reported rs')) i.
Proof.
  intros p p' info level A A' B B' c1 c1' c n ch Hl HR HG HR' HG' E E' HL Hc Hn HT bufs.
  destruct (encoded_heard p info level _ c1 bufs Hl HR HG E) as (c2 & rs & D & R).
  destruct (encoded_heard p' info level _ c1' bufs Hl HR' HG' E') as (c2' & rs' & D' & R'). fold ch in R, R'.
  exists c2, rs, c2', rs'. split; [exact D|]. split; [exact D'|]. intros k Hk i. rewrite R, R'.
  assert (Hch : 0 < ch) by lia.
  assert (HB : total_blocks ch A = total_blocks ch A').
  { unfold total_blocks. rewrite <- (map_map zlen (fun z => z / ch)), HL, map_map. reflexivity. }
  assert (TB : forall a b, total_blocks ch (a ++ b) = total_blocks ch a + total_blocks ch b).
  { intros a b. unfold total_blocks. rewrite map_app, fold_right_app. induction (map _ a); cbn [fold_right]; lia. }
  pose proof (total_blocks_nonneg ch B Hch) as NB. pose proof (total_blocks_nonneg ch B' Hch) as NB'.
  assert (Ei : i = (Z.to_nat k * Z.to_nat ch + Z.to_nat c)%nat) by (subst i; nia).
  assert (Li : (i < Z.to_nat (ch * total_blocks ch (A ++ B)))%nat) by (rewrite TB; subst i; nia).
  assert (Li' : (i < Z.to_nat (ch * total_blocks ch (A' ++ B')))%nat) by (rewrite TB, <- HB; subst i; nia).
  assert (LL : forall q, (i < Z.to_nat (ch * total_blocks ch q))%nat -> (i < length (lossy_signal level ch q))%nat).
  { intros q Hq. pose proof (zlen_output level ch q (fun c => map restore_in_range (lossy (quant_signal (inv_gain level) ch q c))) Hch) as Z1.
    fold (lossy_signal level ch q) in Z1. unfold zlen in Z1. lia. }
  assert (EQ : nth i (lossy_signal level ch (A ++ B)) f0 = nth i (lossy_signal level ch (A' ++ B')) f0).
  { rewrite Ei, !nth_lossy_signal by (rewrite ?TB, <- ?HB; lia).
    assert (X : firstn (Z.to_nat n) (quant_signal (inv_gain level) ch (A ++ B) c) = firstn (Z.to_nat n) (quant_signal (inv_gain level) ch (A' ++ B') c)).
    { apply quant_causal; auto; lia. }
    apply lossy_causal in X. set (f := fun q => fmul (restore_in_range q) (gain level)).
    rewrite !map_map. fold f.
    assert (G : forall l, nth (Z.to_nat k) (map f l) f0 = nth (Z.to_nat k) (map f (firstn (Z.to_nat n) l)) f0).
    { intros l. rewrite <- firstn_map, nth_firstn_any. replace (Z.to_nat k <? Z.to_nat n)%nat with true; auto.
      symmetry. apply Nat.ltb_lt. lia. }
    rewrite G, X, <- G. reflexivity. }
  assert (NE : forall l : list f32, nth_error (firstn (Z.to_nat (room ch bufs)) l) i =
    if (i <? Z.to_nat (room ch bufs))%nat then nth_error l i else None).
  { intros l. destruct (Nat.ltb_spec i (Z.to_nat (room ch bufs))) as [H|H].
    - rewrite <- (firstn_skipn (Z.to_nat (room ch bufs)) l) at 2.
      destruct (Nat.le_gt_cases (length l) i) as [H'|H'].
      + rewrite firstn_skipn. rewrite (proj2 (nth_error_None l i)) by auto. apply nth_error_None. rewrite firstn_length. lia.
      + rewrite nth_error_app1; auto. rewrite firstn_length. lia.
    - apply nth_error_None. rewrite firstn_length. lia. }
  rewrite !NE. destruct (_ <? _)%nat; auto. rewrite !(nth_error_nth' _ f0) by auto. now rewrite EQ.
Qed.
Print Assumptions C62_own_past.

(** ** C63: cutting the signal into calls *)
Lemma tracks_whole ch c pcms : 0 < ch -> 0 <= c < ch -> track ch c pcms = chan ch c (flat_map (whole ch) pcms).
Proof.
  intros Hch Hc. induction pcms as [|pcm pcms IH]; [unfold chan; change (zlen (flat_map (whole ch) [])) with 0; now rewrite Z.div_0_l by lia|].
  cbn [flat_map]. pose proof (Z.div_pos (zlen pcm) ch (zlen_nonneg pcm) Hch) as H0. pose proof (Z.mul_div_le (zlen pcm) ch Hch) as H1.
  assert (HW : zlen (whole ch pcm) = ch * (zlen pcm / ch)).
  { unfold whole. rewrite zlen_firstn. unfold zlen in *. nia. }
  rewrite (chan_app ch c (zlen pcm / ch)) by auto. rewrite <- IH. unfold track. cbn [flat_map]. f_equal.
  unfold chan. rewrite HW, (Z.mul_comm ch), Z.div_mul by lia. apply map_ext_in. intros k Hk. apply in_range in Hk.
  unfold whole. rewrite nth_firstn_any. replace (_ <? _)%nat with true; auto. symmetry. apply Nat.ltb_lt. nia.
Qed.
Lemma same_cut level ch pcms pcms' : 0 < ch -> flat_map (whole ch) pcms = flat_map (whole ch) pcms' ->
  (forall c, 0 <= c < ch -> quant_signal (inv_gain level) ch pcms c = quant_signal (inv_gain level) ch pcms' c) ->
  lossy_signal level ch pcms = lossy_signal level ch pcms'.
Proof.
  intros Hch HW HQ. unfold lossy_signal, output_of.
  assert (HT : total_blocks ch pcms = total_blocks ch pcms').
  { pose proof (total_blocks_whole ch pcms Hch). pose proof (total_blocks_whole ch pcms' Hch). rewrite HW in *. nia. }
  rewrite HT. f_equal. apply map_ext_in. intros c Hc. apply in_range in Hc. now rewrite HQ.
Qed.

(** At level 0 the same blocks sound the same however they were cut into encode calls. *)
Theorem C63_level0 : forall p p' info pcms pcms' c1 c1',
  let ch := si_channels info in
  recording_ok ch pcms -> no_long_gap ch pcms -> recording_ok ch pcms' -> no_long_gap ch pcms' ->
  encode_all p (new_codec info 0) pcms = Ok c1 -> encode_all p' (new_codec info 0) pcms' = Ok c1' ->
  flat_map (whole ch) pcms = flat_map (whole ch) pcms' ->
  forall bufs, exists c2 rs c2' rs',
    decode_all p (ad_init c1) bufs = Ok (c2, rs) /\ decode_all p' (ad_init c1') bufs = Ok (c2', rs') /\
    concat (map reported rs) = concat (map reported rs').
Proof.
  intros p p' info pcms pcms' c1 c1' ch HR HG HR' HG' E E' HW bufs. assert (Hch : 0 < ch) by apply HR.
  destruct (encoded_heard p info 0 _ c1 bufs ltac:(lia) HR HG E) as (c2 & rs & D & R).
  destruct (encoded_heard p' info 0 _ c1' bufs ltac:(lia) HR' HG' E') as (c2' & rs' & D' & R'). fold ch in R, R'.
  exists c2, rs, c2', rs'. split; [exact D|]. split; [exact D'|]. rewrite R, R'. f_equal. apply same_cut; auto.
  intros c Hc. rewrite !quant_signal_0 by auto.
  assert (X : forall q, flat_map (fun pcm => map quantise (chan ch c pcm)) q = map quantise (track ch c q)).
  { induction q as [|x q IH]; [reflexivity|]. cbn [flat_map track]. rewrite map_app, IH. reflexivity. }
  rewrite !X, !tracks_whole by auto. now rewrite HW.
Qed.
Print Assumptions C63_level0.

(** With one channel this holds at every level. *)
Theorem C63_mono : forall p p' info level pcms pcms' c1 c1',
  si_channels info = 1 -> 0 <= level ->
  recording_ok 1 pcms -> no_long_gap 1 pcms -> recording_ok 1 pcms' -> no_long_gap 1 pcms' ->
  encode_all p (new_codec info level) pcms = Ok c1 -> encode_all p' (new_codec info level) pcms' = Ok c1' ->
  concat pcms = concat pcms' ->
  forall bufs, exists c2 rs c2' rs',
    decode_all p (ad_init c1) bufs = Ok (c2, rs) /\ decode_all p' (ad_init c1') bufs = Ok (c2', rs') /\
    concat (map reported rs) = concat (map reported rs').
Proof.
  intros p p' info level pcms pcms' c1 c1' Hi Hl HR HG HR' HG' E E' HW bufs. rewrite <- Hi in HR, HG, HR', HG'.
  destruct (encoded_heard p info level _ c1 bufs Hl HR HG E) as (c2 & rs & D & R).
  destruct (encoded_heard p' info level _ c1' bufs Hl HR' HG' E') as (c2' & rs' & D' & R'). rewrite Hi in *.
  exists c2, rs, c2', rs'. split; [exact D|]. split; [exact D'|]. rewrite R, R'. f_equal.
  assert (W : forall q, flat_map (whole 1) q = concat q).
  { induction q as [|x q IH]; [reflexivity|]. cbn [flat_map concat]. rewrite IH. f_equal. unfold whole.
    rewrite Z.div_1_r, Z.mul_1_l. apply firstn_all2. unfold zlen. lia. }
  apply same_cut; [lia|now rewrite !W|].
  assert (NN : forall q : list (list f32), Forall (fun z => 0 <= z) (map zlen q)).
  { intros q. apply Forall_map, Forall_forall. intros x _. apply zlen_nonneg. }
  assert (S : forall q : list (list f32), fold_right Z.add 0 (map zlen q) = zlen (concat q)).
  { induction q as [|x q IH]; [reflexivity|]. cbn [map fold_right concat]. rewrite zlen_app, IH. reflexivity. }
  intros c Hc. assert (c = 0) by lia. subst c. rewrite !quant_signal_draws by lia. rewrite !tracks_whole, !W, HW by lia.
  rewrite !draws_mono by auto. now rewrite !S, HW.
Qed.
Print Assumptions C63_mono.

(** With two channels and level 4 the cutting is audible: the dither is drawn channel by
    channel within each call, so another cut gives the samples other draws. *)
Definition one_call : list (list f32) := [map milli [100; -200; 250; -300; 150; -100; 90; 65; -30; 72]].
Definition two_calls : list (list f32) := [map milli [100; -200; 250; -300; 150; -100]; map milli [90; 65; -30; 72]].
Ltac small_recording :=
  split; [lia|]; split; [vm_compute; discriminate|];
  split; [repeat (first [apply Forall_nil | apply Forall_cons; [vm_compute; reflexivity|]])|split; vm_compute; congruence].
Lemma calls_ok pcms : In pcms [one_call; two_calls] -> recording_ok 2 pcms /\ no_long_gap 2 pcms.
Proof.
  intros H. split.
  - destruct H as [<-|[<-|[]]]; (small_recording).
  - apply short_no_gap. destruct H as [<-|[<-|[]]]; cbn; lia.
Qed.
Theorem C63_stereo_refuted :
  concat one_call = concat two_calls /\
  exists c1 c1' c2 rs c2' rs',
    encode_all Release (new_codec stereo 4) one_call = Ok c1 /\ encode_all Release (new_codec stereo 4) two_calls = Ok c1' /\
    decode_all Release (ad_init c1) [repeat f0 10] = Ok (c2, rs) /\ decode_all Release (ad_init c1') [repeat f0 10] = Ok (c2', rs') /\
    concat (map reported rs) <> concat (map reported rs').
Proof.
  split; [reflexivity|].
  destruct (calls_ok one_call) as [H1 G1]; [now left|]. destruct (calls_ok two_calls) as [H2 G2]; [now right; left|].
  destruct (encode_release stereo 4 one_call H1) as [c1 E1]. destruct (encode_release stereo 4 two_calls H2) as [c1' E2].
  destruct (encoded_heard Release stereo 4 one_call c1 [repeat f0 10] ltac:(lia) H1 G1 E1) as (c2 & rs & D & R).
  destruct (encoded_heard Release stereo 4 two_calls c1' [repeat f0 10] ltac:(lia) H2 G2 E2) as (c2' & rs' & D' & R').
  exists c1, c1', c2, rs, c2', rs'. split; [exact E1|]. split; [exact E2|]. split; [exact D|]. split; [exact D'|].
  rewrite R, R'. clear. intros H. apply (f_equal (map quantise)) in H. revert H. vm_compute. discriminate.
Qed.
Print Assumptions C63_stereo_refuted.

(** The hypotheses of C62 are met by two quite different recordings: the right channel of the
    first call and everything after it differ. *)
Example C62_applies :
  let A := [map milli [100; -200; 250; -300; 150; -100; 90; 65]] in
  let A' := [map milli [100; 11; 250; 12; 150; -13; 90; 14]] in
  let B := [map milli [1; 2; 3]] in let B' := [map milli [500; 600; 700; 800]; map milli [9; 10]] in
  recording_ok 2 (A ++ B) /\ recording_ok 2 (A' ++ B') /\ no_long_gap 2 (A ++ B) /\ no_long_gap 2 (A' ++ B') /\
  map zlen A = map zlen A' /\ total_blocks 2 A = 4 /\ A <> A' /\
  firstn 4 (track 2 0 A) = firstn 4 (track 2 0 A') /\
  (exists c1, encode_all Release (new_codec stereo 4) (A ++ B) = Ok c1) /\
  (exists c1', encode_all Release (new_codec stereo 4) (A' ++ B') = Ok c1').
Proof.
  intros A A' B B'.
  assert (H1 : recording_ok 2 (A ++ B)) by (small_recording).
  assert (H2 : recording_ok 2 (A' ++ B')) by (small_recording).
  split; [exact H1|]. split; [exact H2|]. split; [apply short_no_gap; cbn; lia|]. split; [apply short_no_gap; cbn; lia|].
  split; [reflexivity|]. split; [reflexivity|]. split.
  { intros H. apply (f_equal (map (map quantise))) in H. revert H. vm_compute. discriminate. }
  split; [reflexivity|]. split; [apply (encode_release stereo 4 _ H1)|apply (encode_release stereo 4 _ H2)].
Qed.
(** Those of C63: [one_call] and [two_calls] at level 0; in mono any cut of the same samples. *)
Example C63_applies :
  flat_map (whole 2) one_call = flat_map (whole 2) two_calls /\ one_call <> two_calls /\
  (forall pcms, In pcms [one_call; two_calls] -> recording_ok 2 pcms /\ no_long_gap 2 pcms /\
     recording_ok 1 pcms /\ no_long_gap 1 pcms /\
     (exists c1, encode_all Release (new_codec stereo 0) pcms = Ok c1) /\ (exists c1, encode_all Release (new_codec mono 4) pcms = Ok c1)).
Proof.
  split; [reflexivity|]. split; [discriminate|]. intros pcms H. destruct (calls_ok pcms H) as [H1 G1]. split; [exact H1|]. split; [exact G1|].
  assert (H2 : recording_ok 1 pcms).
  { destruct H as [<-|[<-|[]]]; (small_recording). }
  split; [exact H2|]. split; [apply short_no_gap; destruct H as [<-|[<-|[]]]; cbn; lia|].
  split; [apply (encode_release stereo 0 _ H1)|apply (encode_release mono 4 _ H2)].
Qed.
