(** * Properties C06, C07, C09, C20, C29: what comes back from an encoded recording

    [encode_all], [decode_all], [reported], [recording_ok], [no_long_gap], [tame], [smooth],
    [decoded_signal], [lossy_signal] and the other words of the statements are defined in
    Spec/Recording.v, apart from the model. *)
From Coq Require Import ZArith List Bool Lia.
From Verif Require Import Model.Base Model.F32 Model.Sample Model.Adhoc Spec.Codec Spec.Recording
  Proofs.BaseFacts Proofs.FloatFacts Proofs.RoundTrip Properties.Demo.
Import ListNotations.
Open Scope Z_scope.

(** ** C06: exact on the quantised signal *)
Theorem C06_round_trip : forall p info level pcms,
  let ch := si_channels info in
  0 <= level -> recording_ok ch pcms -> no_long_gap ch pcms ->
  (forall c, 0 <= c < ch -> tame (quant_signal (inv_gain level) ch pcms c)) ->
  exists c1, encode_all p (new_codec info level) pcms = Ok c1 /\
    forall bufs, exists c2 rs, decode_all p (ad_init c1) bufs = Ok (c2, rs) /\
      concat (map reported rs) = firstn (Z.to_nat (room ch bufs)) (decoded_signal level ch pcms).
Proof.
  intros p info level pcms ch Hl HR HG HT.
  destruct (encode_tame p info level pcms Hl HR) as [c1 E].
  { intros c Hc. apply tame_fifteen. now apply HT. }
  exists c1. split; [exact E|]. intros bufs.
  pose proof (encoded_playing p info level pcms c1 Hl HR E) as HP. fold ch in HP.
  rewrite audible_all in HP by (auto; apply HR).
  destruct (playing_decode p _ info level pcms _ _ bufs HP) as (c2 & rs & E2 & R & _).
  { right. fold ch. lia. }
  exists c2, rs. split; [exact E2|]. rewrite R. fold ch. rewrite Nat.mul_0_r. cbn [skipn].
  now rewrite decoded_tame.
Qed.
Print Assumptions C06_round_trip.
(** The same with a condition that mentions integers only. *)
Theorem C06_round_trip_smooth : forall p info level pcms,
  let ch := si_channels info in
  0 <= level -> recording_ok ch pcms -> no_long_gap ch pcms ->
  (forall c, 0 <= c < ch -> smooth (quant_signal (inv_gain level) ch pcms c)) ->
  exists c1, encode_all p (new_codec info level) pcms = Ok c1 /\
    forall bufs, exists c2 rs, decode_all p (ad_init c1) bufs = Ok (c2, rs) /\
      concat (map reported rs) = firstn (Z.to_nat (room ch bufs)) (decoded_signal level ch pcms).
Proof.
  intros p info level pcms ch Hl HR HG HT. apply C06_round_trip; auto.
  intros c Hc. apply smooth_tame; auto using quant_signal_range.
Qed.
Print Assumptions C06_round_trip_smooth.
(** The hypotheses hold for a stereo recording with a partial block and an empty call, at
    levels 0 and 4. *)
Example C06_applies : forall p level, In level [0; 4] ->
  0 <= level /\ recording_ok (si_channels stereo) demo /\ no_long_gap (si_channels stereo) demo /\
  (forall c, 0 <= c < si_channels stereo -> tame (quant_signal (inv_gain level) (si_channels stereo) demo c)) /\
  is_ok (encode_all p (new_codec stereo level) demo) = true /\
  length (decoded_signal level 2 demo) = 16%nat.
Proof.
  intros p level Hl. split; [cbn in Hl; lia|]. split; [apply demo_ok|]. split; [apply demo_gap|].
  split; [now apply demo_tame|].
  destruct Hl as [<-|[<-|[]]]; destruct p; split; vm_compute; reflexivity.
Qed.

(** ** C07: the schedule of decode buffers does not matter *)
Theorem C07_schedule_independent : forall p info level pcms c1,
  let ch := si_channels info in
  0 <= level -> recording_ok ch pcms -> no_long_gap ch pcms ->
  encode_all p (new_codec info level) pcms = Ok c1 ->
  exists full, zlen full = ch * total_blocks ch pcms /\
    forall bufs, exists c2 rs, decode_all p (ad_init c1) bufs = Ok (c2, rs) /\
      concat (map reported rs) = firstn (Z.to_nat (room ch bufs)) full.
Proof.
  intros p info level pcms c1 ch Hl HR HG E. exists (lossy_signal level ch pcms).
  split; [apply zlen_output; apply HR|]. intros bufs.
  pose proof (encoded_playing p info level pcms c1 Hl HR E) as HP. fold ch in HP.
  rewrite audible_all in HP by (auto; apply HR).
  destruct (playing_decode p _ info level pcms _ _ bufs HP) as (c2 & rs & E2 & R & _).
  { right. fold ch. lia. }
  exists c2, rs. split; [exact E2|]. rewrite R. fold ch. now rewrite Nat.mul_0_r.
Qed.
Print Assumptions C07_schedule_independent.
(** Room for everything yields everything. *)
Corollary C07_enough_room : forall p info level pcms c1,
  let ch := si_channels info in
  0 <= level -> recording_ok ch pcms -> no_long_gap ch pcms ->
  encode_all p (new_codec info level) pcms = Ok c1 ->
  exists full, zlen full = ch * total_blocks ch pcms /\
    forall bufs, ch * total_blocks ch pcms <= room ch bufs ->
      exists c2 rs, decode_all p (ad_init c1) bufs = Ok (c2, rs) /\ concat (map reported rs) = full.
Proof.
  intros p info level pcms c1 ch Hl HR HG E.
  destruct (C07_schedule_independent p info level pcms c1 Hl HR HG E) as (full & L & H). fold ch in L, H.
  exists full. split; [exact L|]. intros bufs Hb. destruct (H bufs) as (c2 & rs & E2 & R).
  exists c2, rs. split; [exact E2|]. rewrite R. apply firstn_all2. unfold zlen in L. lia.
Qed.
Print Assumptions C07_enough_room.
(** Two schedules of a recorded codec: 7+0+4+100 samples of room, or all at once. *)
Example C07_applies :
  match encode_all Debug (new_codec stereo 4) demo with
  | Ok c1 =>
      match decode_all Debug (ad_init c1) [repeat f0 7; []; repeat f0 4; repeat f0 100],
            decode_all Debug (ad_init c1) [repeat f0 16] with
      | Ok (_, rs1), Ok (_, rs2) =>
          map (fun r => length (reported r)) rs1 = [6; 0; 4; 6]%nat /\
          map (fun r => length (reported r)) rs2 = [16%nat]
      | _, _ => False
      end
  | _ => False
  end.
Proof. vm_compute. split; reflexivity. Qed.

(** ** C09: framing survives any input *)
(** No condition on the sample values: in builds without overflow checks every recording
    can be encoded and decodes to as many samples as its whole blocks hold, namely to the
    values [lossy_signal] spells out. *)
Theorem C09_framing : forall info level pcms,
  let ch := si_channels info in
  0 <= level -> recording_ok ch pcms -> no_long_gap ch pcms ->
  exists c1, encode_all Release (new_codec info level) pcms = Ok c1 /\
    zlen (lossy_signal level ch pcms) = ch * total_blocks ch pcms /\
    forall bufs, exists c2 rs, decode_all Release (ad_init c1) bufs = Ok (c2, rs) /\
      concat (map reported rs) = firstn (Z.to_nat (room ch bufs)) (lossy_signal level ch pcms).
Proof.
  intros info level pcms ch Hl HR HG. destruct (encode_release info level pcms HR) as [c1 E].
  exists c1. split; [exact E|]. split; [apply zlen_output; apply HR|]. intros bufs.
  pose proof (encoded_playing _ info level pcms c1 Hl HR E) as HP. fold ch in HP.
  rewrite audible_all in HP by (auto; apply HR).
  destruct (playing_decode _ _ info level pcms _ _ bufs HP) as (c2 & rs & E2 & R & _).
  { right. fold ch. lia. }
  exists c2, rs. split; [exact E2|]. rewrite R. fold ch. now rewrite Nat.mul_0_r.
Qed.
Print Assumptions C09_framing.
(** Not-a-number, infinities and full-scale alternation: the hypotheses do not exclude them,
    and the signal is not [tame]. *)
Definition wild : list (list f32) :=
  [[fdiv f0 f0; fdiv f1 f0; fdiv fm1 f0; f1; fm1; f1; fm1; f32_of_Z 1000000]].
Example C09_applies : recording_ok 1 wild /\ no_long_gap 1 wild /\
  tameb (quant_signal (inv_gain 0) 1 wild 0) = false.
Proof.
  split; [|split; [apply short_no_gap; cbn; lia|vm_compute; reflexivity]].
  split; [lia|]. split; [vm_compute; discriminate|]. split; [|split; vm_compute; congruence].
  repeat constructor.
Qed.

(** ** C20: rewind and replay *)
(** A client that, any number of times, rewinds with [init] or with [seek(Start(0))] and
    decodes into some buffers; one list of results per round. *)
Inductive rewind := ByInit | BySeek.
Fixpoint replay (p : profile) (c : adhoc) (rounds : list (rewind * list (list f32)))
  : outcome (list (list (list f32 * option Z))) :=
  match rounds with
  | [] => Ok []
  | (how, bufs) :: rounds =>
      c <- (match how with ByInit => Ok (ad_init c) | BySeek => ad_seek p c (SStart 0) end) ;;
      '(c, rs) <- decode_all p c bufs ;;
      rss <- replay p c rounds ;;
      Ok (rs :: rss)
  end.
Lemma rewinds p info level pcms c done R how :
  playing p c info level pcms done R ->
  (match how with ByInit => Ok (ad_init c) | BySeek => ad_seek p c (SStart 0) end) = Ok (ad_init c).
Proof.
  intros (m & rows & HD & _). destruct how; [reflexivity|]. destruct HD as (Hi & _).
  unfold ad_seek, ad_info. now rewrite Hi.
Qed.
Theorem C20_replay : forall p info level pcms c1 rounds,
  let ch := si_channels info in
  0 <= level -> recording_ok ch pcms -> no_long_gap ch pcms ->
  encode_all p (new_codec info level) pcms = Ok c1 ->
  exists rss, replay p c1 rounds = Ok rss /\
    Forall2 (fun round rs => concat (map reported rs)
                             = firstn (Z.to_nat (room ch (snd round))) (lossy_signal level ch pcms)) rounds rss.
Proof.
  intros p info level pcms c1 rounds ch Hl HR HG E.
  set (T := Z.to_nat (total_blocks ch pcms)).
  assert (A : audible ch 0 pcms = total_blocks ch pcms) by (apply audible_all; auto; apply HR).
  (* once playing, forever playing *)
  assert (G : forall rounds c done R, playing p c info level pcms done R ->
    exists rss, replay p c rounds = Ok rss /\
    Forall2 (fun round rs => concat (map reported rs)
                             = firstn (Z.to_nat (room ch (snd round))) (lossy_signal level ch pcms)) rounds rss).
  { clear -A. induction rounds as [|[how bufs] rounds IH]; intros c done R HP.
    - exists []. split; [reflexivity|constructor].
    - cbn [replay]. rewrite (rewinds p info level pcms c done R how HP). cbn [bind].
      apply playing_rewind in HP. fold ch in HP. rewrite A in HP.
      destruct (playing_decode p _ info level pcms _ _ bufs HP) as (c2 & rs & E2 & Q & HP2).
      { right. fold ch. lia. }
      rewrite E2. cbn [bind]. destruct (IH _ _ _ HP2) as (rss & E3 & F). rewrite E3. cbn [bind].
      exists (rs :: rss). split; [reflexivity|]. constructor; auto. cbn [snd]. rewrite Q. fold ch.
      now rewrite Nat.mul_0_r. }
  destruct rounds as [|[how bufs] rounds]; [exists []; split; [reflexivity|constructor]|].
  pose proof (encoded_playing p info level pcms c1 Hl HR E) as HP. fold ch in HP. rewrite A in HP.
  assert (E1 : (match how with ByInit => Ok (ad_init c1) | BySeek => ad_seek p c1 (SStart 0) end) = Ok (ad_init c1)).
  { destruct how; [reflexivity|]. destruct HP as (m & rows & (Hi & _) & _).
    cbn [ad_init ad_stream as_info] in Hi. unfold ad_seek, ad_info. now rewrite Hi. }
  cbn [replay]. rewrite E1. cbn [bind].
  destruct (playing_decode p _ info level pcms _ _ bufs HP) as (c2 & rs & E2 & Q & HP2).
  { right. fold ch. lia. }
  rewrite E2. cbn [bind]. destruct (G rounds _ _ _ HP2) as (rss & E3 & F). rewrite E3. cbn [bind].
  exists (rs :: rss). split; [reflexivity|]. constructor; auto. cbn [snd]. rewrite Q. fold ch.
  now rewrite Nat.mul_0_r.
Qed.
Print Assumptions C20_replay.
Example C20_applies :
  match encode_all Release (new_codec stereo 4) demo with
  | Ok c1 =>
      match replay Release c1 [(ByInit, [repeat f0 5]); (BySeek, [repeat f0 30; repeat f0 2]); (BySeek, [repeat f0 6])] with
      | Ok rss => map (map (fun r => length (reported r))) rss = [[4]; [16; 0]; [6]]%nat
      | _ => False
      end
  | _ => False
  end.
Proof. vm_compute. reflexivity. Qed.

(** ** C29: runs of empty encode calls *)
(** The exact law of the calls up to the first gap: as long as the buffers ask for no more
    than the [audible] blocks nothing is missing; the next call, into any buffer [b],
    reports what is left of the audible blocks and not more, [None] if nothing is left,
    whether or not the recording goes on after the gap. *)
Theorem C29_gap : forall p info level pcms c1 bufs b,
  let ch := si_channels info in
  let full := lossy_signal level ch pcms in
  0 <= level -> recording_ok ch pcms ->
  encode_all p (new_codec info level) pcms = Ok c1 ->
  room ch bufs <= ch * audible ch 0 pcms ->
  exists c2 rs c3 b' r, decode_all p (ad_init c1) bufs = Ok (c2, rs) /\
    concat (map reported rs) = firstn (Z.to_nat (room ch bufs)) full /\
    ad_decode p c2 b = Ok (c3, b', r) /\
    let n := Z.min (ch * (zlen b / ch)) (ch * audible ch 0 pcms - room ch bufs) in
    r = (if n =? 0 then None else Some n) /\
    reported (b', r) = firstn (Z.to_nat n) (skipn (Z.to_nat (room ch bufs)) full).
Proof.
  intros p info level pcms c1 bufs b ch full Hl HR E Hb. assert (Hch : 0 < ch) by apply HR.
  pose proof (encoded_playing p info level pcms c1 Hl HR E) as HP. fold ch in HP.
  pose proof (audible_le ch 0 pcms Hch) as HA.
  destruct (playing_decode p _ info level pcms _ _ bufs HP) as (c2 & rs & E2 & R & HP2).
  { left. fold ch. lia. }
  fold ch in R, HP2. rewrite room_blocks in Hb by auto.
  replace (Nat.min (blocks_of (Z.to_nat ch) bufs) (Z.to_nat (audible ch 0 pcms)))
    with (blocks_of (Z.to_nat ch) bufs) in HP2 by nia.
  destruct (playing_call p c2 info level pcms _ _ b HP2) as (c3 & b' & R' & E3 & R3 & _).
  fold ch in E3, R3. fold full in R3.
  eexists. exists rs. eexists. eexists. eexists. split; [exact E2|]. split.
  { rewrite R. now rewrite Nat.mul_0_r. }
  split; [exact E3|]. cbv zeta. rewrite room_blocks by auto.
  set (B := blocks_of (Z.to_nat ch) bufs) in *.
  set (k := Nat.min (length b / Z.to_nat ch) (Z.to_nat (audible ch 0 pcms) - B)) in *.
  assert (Ek : Z.min (ch * (zlen b / ch)) (ch * audible ch 0 pcms - ch * Z.of_nat B) = ch * Z.of_nat k).
  { subst k. rewrite Nat2Z.inj_min, Nat2Z.inj_div, Nat2Z.inj_sub, !Z2Nat.id by nia. unfold zlen. nia. }
  rewrite Ek. split.
  - destruct (Nat.ltb_spec 0 k); destruct (Z.eqb_spec (ch * Z.of_nat k) 0); auto; nia.
  - unfold reported. cbn [fst snd].
    replace (Z.to_nat (ch * Z.of_nat B)) with (Z.to_nat ch * B)%nat by lia.
    replace (Z.to_nat ch * (0 + B))%nat with (Z.to_nat ch * B)%nat in R3 by lia.
    destruct (Nat.ltb_spec 0 k); [exact R3|]. replace k with 0%nat by lia. now rewrite Z.mul_0_r.
Qed.
Print Assumptions C29_gap.
(** Without a gap of nine nothing is hidden. *)
Theorem C29_short_gaps : forall ch pcms, 0 < ch -> no_long_gap ch pcms -> audible ch 0 pcms = total_blocks ch pcms.
Proof. exact audible_all. Qed.
Print Assumptions C29_short_gaps.
(** Nine calls without a whole block, followed at some point by one with a block, hide it. *)
Theorem C29_long_gap : forall ch a b pcm c, 0 < ch ->
  Forall (fun pcm => zlen pcm < ch) b -> (9 <= length b)%nat -> ch <= zlen pcm ->
  audible ch 0 (a ++ b ++ pcm :: c) <= total_blocks ch a /\
  total_blocks ch a < total_blocks ch (a ++ b ++ pcm :: c).
Proof.
  intros ch a b pcm c Hch Hb Hl Hp.
  assert (T : forall x y, total_blocks ch (x ++ y) = total_blocks ch x + total_blocks ch y).
  { intros x y. unfold total_blocks. rewrite map_app, fold_right_app.
    induction x; cbn [map fold_right]; lia. }
  split.
  - generalize 0%nat as run. induction a as [|x a IH]; intros run.
    + cbn [app]. change (total_blocks ch []) with 0.
      assert (G : forall b run, Forall (fun pcm => zlen pcm < ch) b -> (9 <= run + length b)%nat ->
        audible ch run (b ++ pcm :: c) = 0).
      { clear -Hch Hp. induction b as [|x b IH]; intros run Hb Hl; cbn [app audible].
        - destruct (Z.ltb_spec (zlen pcm) ch); [lia|]. cbn [length] in Hl. destruct (Nat.leb_spec run 8); auto. lia.
        - inversion Hb; subst. destruct (Z.ltb_spec (zlen x) ch); [|lia]. apply IH; auto. cbn [length] in Hl. lia. }
      rewrite G; auto; lia.
    + cbn [app audible]. unfold total_blocks. cbn [map fold_right]. fold (total_blocks ch a).
      pose proof (Z.div_pos (zlen x) ch (zlen_nonneg _) Hch).
      destruct (Z.ltb_spec (zlen x) ch).
      * specialize (IH (S run)). lia.
      * pose proof (total_blocks_nonneg ch a Hch). destruct (run <=? 8)%nat; [|lia]. specialize (IH 0%nat). lia.
  - rewrite !T. change (pcm :: c) with ([pcm] ++ c). rewrite T.
    pose proof (total_blocks_nonneg ch b Hch). pose proof (total_blocks_nonneg ch c Hch).
    assert (total_blocks ch [pcm] = zlen pcm / ch) as -> by (unfold total_blocks; cbn [map fold_right]; lia).
    assert (1 <= zlen pcm / ch) by (apply Z.div_le_lower_bound; lia). lia.
Qed.
Print Assumptions C29_long_gap.
(** Three blocks, nine empty calls, three blocks: six blocks are stored, three are audible;
    after them decode returns None once and then the rest. *)
Example C29_applies : recording_ok 1 gap_demo /\ audible 1 0 gap_demo = 3 /\ total_blocks 1 gap_demo = 6 /\
  match encode_all Debug (new_codec mono 0) gap_demo with
  | Ok c1 =>
      match decode_all Debug (ad_init c1) [repeat f0 3; repeat f0 3; repeat f0 9; repeat f0 2],
            decode_all Debug (ad_init c1) [repeat f0 10; repeat f0 10] with
      | Ok (_, rs), Ok (_, rs') =>
          map snd rs = [Some 3; None; Some 3; None] /\ map snd rs' = [Some 3; Some 3]
      | _, _ => False
      end
  | _ => False
  end.
Proof. split; [apply gap_demo_ok|]. vm_compute. repeat split; reflexivity. Qed.
