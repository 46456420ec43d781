(** * Whole recordings: what a client feeds to the codec and what it should get back *)
From Coq Require Import ZArith List Bool.
From Verif Require Import Model.Base Model.F32 Model.Noise Model.Sample Model.Adhoc Spec.Codec.
Import ListNotations.
Open Scope Z_scope.

(** ** The noise generator as a plain sequence *)
Definition rnd (s : Z) : Z := (1000003 * s + 314159) mod 507961.
(** The [n]-th generator value; the codec starts with 314. *)
Fixpoint rnd_iter (n : nat) : Z := match n with O => 314 | S n => rnd (rnd_iter n) end.
(** The [j]-th triangular noise value: two generator values each, the difference of two
    uniform values below 1. *)
Definition fraction (r : Z) : f32 := fdiv (f32_of_Z (Z.land r 16383)) (f32_of_Z 16384).
Definition noise (j : nat) : f32 :=
  fadd (fmul (fraction (rnd_iter (2 * j + 1))) (f32_of_Z (-1)))
       (fmul (fraction (rnd_iter (2 * j + 2))) (f32_of_Z 1)).

(** ** Gains *)
(** The factor a compression level divides samples by, a power of two; levels above 10
    count as 10. *)
Definition gain (level : Z) : f32 := f32_of_Z (2 ^ Z.min level 10).
Definition inv_gain (level : Z) : f32 := fdiv (f32_of_Z 1) (gain level).

(** ** Quantisation *)
(** 16-bit value of a sample, and the sample a 16-bit value stands for. *)
Definition quantise (s : f32) : Z :=
  f32_as_i16 (fmul (fclamp s (f32_of_Z (-1)) (f32_of_Z 1)) (f32_of_Z 32767)).
Definition restore (q : Z) : f32 := fmul (f32_of_Z q) (fdiv (f32_of_Z 1) (f32_of_Z 32767)).

(** ** What encode quantises *)
(** A sample with noise added, scaled down.  The constant is 0.001 in single precision. *)
Definition dithered (inv s n : f32) : f32 :=
  fmul (fadd s (fmul (fmul n (flit 8589935 (-33))) (fsub (f32_of_Z 1) inv))) inv.
(** Sample [k] of channel [c] of an interleaved slice [pcm] with [n] samples per channel,
    when [base] noise values have been drawn before this call: channels are processed one
    after the other, each sample drawing one noise value. *)
Definition preprocessed (inv : f32) (base : nat) (ch n : Z) (pcm : list f32) (c k : Z) : f32 :=
  dithered inv (nth (Z.to_nat (k * ch + c)) pcm (f32_of_Z 0)) (noise (base + Z.to_nat (c * n + k))).
Definition quant_channel (inv : f32) (base : nat) (ch : Z) (pcm : list f32) (c : Z) : list Z :=
  let n := zlen pcm / ch in
  map (fun k => quantise (preprocessed inv base ch n pcm c k)) (range n).
(** One encode call, channel by channel. *)
Definition quant_call (inv : f32) (base : nat) (ch : Z) (pcm : list f32) : list (list Z) :=
  map (quant_channel inv base ch pcm) (range ch).
(** A sequence of encode calls. *)
Fixpoint quant_calls (inv : f32) (base : nat) (ch : Z) (pcms : list (list f32)) : list (list (list Z)) :=
  match pcms with
  | [] => []
  | pcm :: pcms =>
      quant_call inv base ch pcm
      :: quant_calls inv (base + Z.to_nat (ch * (zlen pcm / ch))) ch pcms
  end.
(** Channel [c] of the whole recording. *)
Definition quant_signal (inv : f32) (ch : Z) (pcms : list (list f32)) (c : Z) : list Z :=
  flat_map (fun call => nth (Z.to_nat c) call []) (quant_calls inv 0 ch pcms).

(** No prediction error of a channel leaves the range a residual can store. *)
Definition tame (qs : list Z) : Prop :=
  forall t, (3 <= t < length qs)%nat ->
    -32767 <= nth t qs 0 - predict (nth (t - 3) qs 0) (nth (t - 2) qs 0) (nth (t - 1) qs 0) <= 32766.

(** No prediction error of a channel needs more than 15 bits and a sign. *)
Definition fifteen_bits (qs : list Z) : Prop :=
  forall t, (3 <= t < length qs)%nat ->
    -32767 <= nth t qs 0 - predict (nth (t - 3) qs 0) (nth (t - 2) qs 0) (nth (t - 1) qs 0) <= 32767.

(** [tame] with the quadratic extrapolation in place of the prediction: by property C14 it
    implies [tame]. *)
Definition extrapolate (a b c : Z) : Z := Z.max (-32767) (Z.min 32767 (a - 3 * b + 3 * c)).
Definition smooth (qs : list Z) : Prop :=
  forall t, (3 <= t < length qs)%nat ->
    -32766 <= nth t qs 0 - extrapolate (nth (t - 3) qs 0) (nth (t - 2) qs 0) (nth (t - 1) qs 0) <= 32765.

(** ** Clients *)
(** Encode slices one after the other. *)
Definition encode_all (p : profile) (c : adhoc) (pcms : list (list f32)) : outcome adhoc :=
  foldM (fun c pcm => '(c, _) <- ad_encode p c pcm ;; Ok c) pcms c.
(** Decode into the given buffers one after the other: what is reported and left in each. *)
Fixpoint decode_all (p : profile) (c : adhoc) (bufs : list (list f32))
  : outcome (adhoc * list (list f32 * option Z)) :=
  match bufs with
  | [] => Ok (c, [])
  | b :: bufs =>
      '(c, b', r) <- ad_decode p c b ;;
      '(c, rs) <- decode_all p c bufs ;;
      Ok (c, (b', r) :: rs)
  end.
(** The samples a decode call reports: the front of the buffer. *)
Definition reported (r : list f32 * option Z) : list f32 :=
  match snd r with Some n => firstn (Z.to_nat n) (fst r) | None => [] end.

(** The first [n] samples of every channel, interleaved. *)
Fixpoint interleave {A} (d : A) (n : nat) (chans : list (list A)) : list A :=
  match n with
  | O => []
  | S n => map (hd d) chans ++ interleave d n (map (@tl A) chans)
  end.

(** A new codec. *)
Definition new_codec (info : stream_info) (level : Z) : adhoc :=
  ad_with_level (ad_set_info ad_new info) level.

(** ** Recordings the theorems talk about *)
(** At least one channel; the first encode call has at least three samples per channel and
    every call at most 65535; the number of frames fits 32 bits; the total length is bounded
    so that the bit position fits 64 bits. *)
Definition recording_ok (ch : Z) (pcms : list (list f32)) : Prop :=
  0 < ch /\
  match pcms with [] => True | pcm :: _ => 3 * ch <= zlen pcm end /\
  Forall (fun pcm => zlen pcm < 65536 * ch) pcms /\
  ch * zlen pcms + 1 < 2 ^ 32 /\
  zlen (concat pcms) <= 2 ^ 58.
(** Nine consecutive encode calls without a whole block are followed by such calls only. *)
Definition no_long_gap (ch : Z) (pcms : list (list f32)) : Prop :=
  forall a b c, pcms = a ++ b ++ c -> Forall (fun pcm => zlen pcm < ch) b -> (9 <= length b)%nat ->
    Forall (fun pcm => zlen pcm < ch) c.
(** The samples of the whole blocks of a slice. *)
Definition whole (ch : Z) (pcm : list f32) : list f32 := firstn (Z.to_nat (ch * (zlen pcm / ch))) pcm.
(** Whole blocks (one sample per channel) in the recording. *)
Definition total_blocks (ch : Z) (pcms : list (list f32)) : Z :=
  fold_right Z.add 0 (map (fun pcm => zlen pcm / ch) pcms).
(** Blocks encoded before the first nine consecutive calls without a whole block that are
    followed by a call with one.  [run]: calls without a block just passed. *)
Fixpoint audible (ch : Z) (run : nat) (pcms : list (list f32)) : Z :=
  match pcms with
  | [] => 0
  | pcm :: pcms =>
      if zlen pcm <? ch then audible ch (S run) pcms
      else if (run <=? 8)%nat then zlen pcm / ch + audible ch 0 pcms else 0
  end.
(** Samples the buffers have room for, in whole blocks. *)
Definition room (ch : Z) (bufs : list (list f32)) : Z :=
  fold_right Z.add 0 (map (fun b => ch * (zlen b / ch)) bufs).

(** What a decoder makes of a channel's quantised samples: the first three are stored as
    they are, of the others the 16-bit prediction errors are stored and added to the
    decoder's own predictions. *)
Definition lossy (qs : list Z) : list Z :=
  let t := (nth 0 qs 0, nth 1 qs 0, nth 2 qs 0) in
  firstn 3 qs ++ reconstruct t (residuals t (skipn 3 qs)).
Definition restore_in_range (q : Z) : f32 := fclamp (restore q) (f32_of_Z (-1)) (f32_of_Z 1).

(** Channel signals to decoder output: restored, scaled back up, interleaved. *)
Definition output_of (level ch : Z) (pcms : list (list f32)) (value : Z -> list f32) : list f32 :=
  interleave (f32_of_Z 0) (Z.to_nat (total_blocks ch pcms))
    (map (fun c => map (fun x => fmul x (gain level)) (value c)) (range ch)).
(** What decoding returns, whatever was encoded. *)
Definition lossy_signal (level ch : Z) (pcms : list (list f32)) : list f32 :=
  output_of level ch pcms (fun c => map restore_in_range (lossy (quant_signal (inv_gain level) ch pcms c))).
(** What decoding should return: the quantised samples. *)
Definition decoded_signal (level ch : Z) (pcms : list (list f32)) : list f32 :=
  output_of level ch pcms (fun c => map restore (quant_signal (inv_gain level) ch pcms c)).
