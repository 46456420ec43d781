(** * Property C97: how precisely a seek hits the time asked for

    A recording has [rate] blocks a second, so [ms] milliseconds are [rate * ms / 1000] blocks.  To keep to whole numbers everything
    is in thousandths of a block: the block [t] begins at [1000 * t], the time asked for lies at [rate * ms]. *)
From Coq Require Import ZArith List Bool Lia.
From Flocq Require Import IEEE754.BinarySingleNaN.
From Verif Require Import Model.Base Model.F32 Model.Sample Model.Frame Model.Adhoc Model.Wav Spec.Codec Spec.Recording Spec.Frames Spec.Files Spec.Seeking Spec.Wave
  Proofs.BaseFacts Proofs.SeekTarget Proofs.WavSeek Proofs.SeekPrecision Properties.Demo Properties.SeekProps Properties.WavProps.
Import ListNotations.
Open Scope Z_scope.

(** Never later than asked for by more than a four-millionth of the time, never earlier by more than that and one block. *)
Theorem C97_error : forall info ms, let t := target_block info ms in let x := si_rate info * ms in
  0 <= si_rate info < 2 ^ 32 -> 0 <= ms < 2 ^ 64 -> t < 2 ^ 64 - 1 ->
  4000000 * (1000 * t - x) <= x /\ 4000000 * (x - 1000 * t) <= 4000000 * 1000 + x.
Proof. intros. now apply target_error. Qed.
Print Assumptions C97_error.
(** Half that for rates and times below 2^24 (16.7 MHz, four and a half hours). *)
Theorem C97_usual : forall info ms, let t := target_block info ms in let x := si_rate info * ms in
  0 <= si_rate info <= 2 ^ 24 -> 0 <= ms <= 2 ^ 24 ->
  8000000 * (1000 * t - x) <= x /\ 8000000 * (x - 1000 * t) <= 8000000 * 1000 + x.
Proof. intros. now apply target_error_usual. Qed.
Print Assumptions C97_usual.
(** So up to two hours and thirteen minutes a seek is at most one millisecond late, and at most one millisecond and one block
    early. *)
Lemma millisecond info ms : 0 <= si_rate info <= 2 ^ 24 -> 0 <= ms <= 8000000 ->
  - si_rate info - 1000 <= 1000 * target_block info ms - si_rate info * ms <= si_rate info.
Proof. intros Hr Hm. destruct (target_error_usual info ms Hr ltac:(lia)) as [A B]. nia. Qed.

(** Later times never lead to an earlier block, nor do higher rates. *)
Theorem C97_monotone : forall info info' ms ms', 0 <= si_rate info <= si_rate info' -> si_rate info' < 2 ^ 32 -> 0 <= ms <= ms' -> ms' < 2 ^ 64 ->
  target_block info ms <= target_block info' ms'.
Proof. intros. apply target_mono; lia. Qed.
Print Assumptions C97_monotone.

(** From block 2^24 on (5 minutes 49 seconds at 48 kHz) every second block cannot be reached by a seek, from 2^25 on only every
    fourth can be, and so on. *)
Theorem C97_grid : forall info ms k, 0 <= si_rate info < 2 ^ 32 -> 0 <= ms < 2 ^ 64 -> 0 <= k ->
  2 ^ (24 + k) <= target_block info ms < 2 ^ 64 - 1 -> (2 ^ (k + 1) | target_block info ms).
Proof. exact target_grid. Qed.
Print Assumptions C97_grid.
(** From 2^24 milliseconds on not even every millisecond can be: these two times are the same to every seek. *)
Theorem C97_same_time : forall info, target_block info 16777217 = target_block info 16777216.
Proof. intros info. unfold target_block. f_equal. f_equal. apply B2SF_inj. vm_compute. reflexivity. Qed.
Print Assumptions C97_same_time.

(** What is heard.  A seek to a time at least a millisecond before the end of a recording plays it from a block that is at most one
    millisecond (and one block) away from that time. *)
Theorem C97_seek : forall p info level pcms c1 ops c ms,
  let ch := si_channels info in let rate := si_rate info in
  0 <= level -> info_fits info -> recording_ok ch pcms -> no_long_gap ch pcms ->
  (forall c, 0 <= c < ch -> tame (quant_signal (inv_gain level) ch pcms c)) ->
  encode_all p (new_codec info level) pcms = Ok c1 -> play_all p ops c1 = Ok c ->
  pcms <> [] -> rate <= 2 ^ 24 -> 0 <= ms <= 8000000 -> rate * (ms + 1) <= 1000 * total_blocks ch pcms ->
  exists t c', - rate - 1000 <= 1000 * t - rate * ms <= rate /\ ad_seek p c (SStart ms) = Ok c' /\
    forall bufs, exists c2 rs, decode_all p c' bufs = Ok (c2, rs) /\
      concat (map reported rs) = firstn (Z.to_nat (room ch bufs)) (skipn (Z.to_nat (ch * t)) (decoded_signal level ch pcms)).
Proof.
  intros p info level pcms c1 ops c ms ch rate Hl HI HR HG HT E HP Hne Hr Hm Hb.
  assert (R0 : 0 <= rate) by (unfold rate; destruct HI as [[? ?] [? ?]]; lia).
  pose proof (millisecond info ms ltac:(fold rate; lia) Hm) as M. fold rate in M.
  destruct (C18_seek p info level pcms c1 ops c ms Hl HI HR HG HT E HP Hne) as (c' & E' & H).
  { fold ch. destruct (Z.le_gt_cases (target_block info ms) (total_blocks ch pcms)) as [L|L]; [exact L|]. nia. }
  exists (target_block info ms), c'. split; [exact M|]. split; [exact E'|exact H].
Qed.
Print Assumptions C97_seek.

(** The same for a WavCodec; and going forward [n] times by the same time goes [n] times as far as once, so that the errors of the
    steps add up. *)
Fixpoint forward (p : profile) (n : nat) (ms : Z) (w : wav) : outcome wav :=
  match n with O => Ok w | S n => w <- wav_seek p w (SCurrent ms) ;; forward p n ms w end.
Theorem C97_wav : forall p info pcm ms, let ch := si_channels info in let rate := si_rate info in
  1 <= ch -> 0 <= rate <= 2 ^ 24 -> 0 <= ms <= 8000000 -> 2 <= zlen pcm < 2 ^ 63 ->
  exists d, - rate - 1000 <= 1000 * d - rate * ms <= rate /\ 0 <= d /\
    (forall c, ch * d < zlen pcm / 2 -> wav_seek p (mkWav info pcm c) (SStart ms) = Ok (mkWav info pcm (ch * d))) /\
    (forall n k, 0 <= k -> ch * (k + Z.of_nat n * d) < zlen pcm / 2 ->
      forward p n ms (mkWav info pcm (ch * k)) = Ok (mkWav info pcm (ch * (k + Z.of_nat n * d)))).
Proof.
  intros p info pcm ms ch rate Hch Hr Hm Hp. pose proof (millisecond info ms Hr Hm) as M. fold rate in M.
  pose proof (target_nonneg info ms) as T0. set (d := target_block info ms) in *.
  assert (B : block_offset info ms = d).
  { rewrite offset_target by (fold rate; lia). fold d. assert (d < 2 ^ 63) by nia. lia. }
  exists d. split; [exact M|]. split; [lia|]. pose proof (Z.div_le_upper_bound (zlen pcm) 2 (2 ^ 62) ltac:(lia) ltac:(lia)) as Hh. split.
  - intros c Hc. rewrite C48_start; rewrite ?B; fold ch; try nia. f_equal. f_equal. rewrite zclamp_eq by nia. nia.
  - intros n. induction n as [|n IH]; intros k Hk Hc; cbn [forward].
    + f_equal. f_equal. nia.
    + assert (Hs : ch * (k + d) < zlen pcm / 2) by nia.
      rewrite C48_current; rewrite ?B; fold ch; try nia.
      all: rewrite ?(Z.mul_comm ch k), ?Z.div_mul by lia; try nia.
      cbn [bind]. replace (zclamp (ch * k + d * ch) 0 (zlen pcm / 2 - 1)) with (ch * (k + d)) by (rewrite zclamp_eq by nia; nia).
      rewrite IH by nia. f_equal. f_equal. nia.
Qed.
Print Assumptions C97_wav.

(** At 44.1 kHz a seek to 2:13:15.562 lands 28.2 blocks (0.64 ms) early; 1000 seeks by 1 ms go 44000 blocks and not 44100; no
    seek reaches block 2^24 + 1. *)
Example C97_applies :
  let cd := mkInfo 44100 2 in
  1000 * target_block cd 7995562 - 44100 * 7995562 = -28200 /\ target_block cd 1 = 44 /\ target_block cd 1000 = 44100 /\
  target_block (mkInfo 48000 2) 349526 = 16777248 /\
  forall ms, 0 <= ms < 2 ^ 64 -> target_block cd ms <> 2 ^ 24 + 1.
Proof.
  cbv zeta. split; [vm_compute; reflexivity|]. split; [vm_compute; reflexivity|]. split; [vm_compute; reflexivity|]. split; [vm_compute; reflexivity|].
  intros ms Hm E. destruct (C97_grid (mkInfo 44100 2) ms 0) as [n Hn]; cbn [si_rate]; lia.
Qed.
(** The recording of C18, played at 2000 blocks a second, meets the hypotheses of [C97_seek]: three milliseconds of its six blocks
    or more. *)
Example C97_seek_applies : si_rate slow <= 2 ^ 24 /\ si_rate slow * (2 + 1) <= 1000 * total_blocks 2 demo.
Proof. split; vm_compute; congruence. Qed.
