(** * Specification vocabulary: where a seek lands and what is heard from there *)
From Coq Require Import ZArith List.
From Verif Require Import Model.Base Model.F32 Model.Sample Model.Adhoc Spec.Codec Spec.Recording.
Import ListNotations.
Open Scope Z_scope.

(** The block (one sample per channel) that a time in milliseconds stands for: the sampling
    rate per millisecond times the time, both in single precision, rounded down; not above
    [2^64 - 1]. *)
Definition target_block (info : stream_info) (ms : Z) : Z :=
  f32_as_u64 (fmul (fdiv (f32_of_Z (si_rate info)) (f32_of_Z 1000)) (f32_of_Z ms)).

(** Blocks encoded before the call that holds block [t], the first call that ends at or after
    block [t]. *)
Fixpoint call_start (ch t : Z) (pcms : list (list f32)) : Z :=
  match pcms with
  | [] => 0
  | pcm :: pcms => if t <=? zlen pcm / ch then 0 else zlen pcm / ch + call_start ch (t - zlen pcm / ch) pcms
  end.

(** What a decoder makes of a channel when it starts at sample [k], knowing the three samples
    before it. *)
Definition resumed (k : Z) (qs : list Z) : list Z :=
  if k =? 0 then lossy qs
  else
    let n := Z.to_nat k in
    let t := (nth (n - 3) qs 0, nth (n - 2) qs 0, nth (n - 1) qs 0) in
    reconstruct t (residuals t (skipn n qs)).
(** What is heard after seeking to block [t]: decoding starts at the call holding the block,
    and the samples before the block are dropped. *)
Definition heard_from (level ch : Z) (pcms : list (list f32)) (t : Z) : list f32 :=
  let s := call_start ch t pcms in
  interleave (f32_of_Z 0) (Z.to_nat (total_blocks ch pcms - t))
    (map (fun c => map (fun q => fmul (restore_in_range q) (gain level))
                       (skipn (Z.to_nat (t - s)) (resumed s (quant_signal (inv_gain level) ch pcms c))))
         (range ch)).
