(** * What the codec computes, on integer sample values

    One channel's quantised samples are a [list Z].  The prediction from the last three
    samples is [predict] (its closed form is property C14). *)
From Coq Require Import ZArith List Bool.
From Verif Require Import Model.Base Model.F32 Model.Sample Spec.Bits.
Import ListNotations.
Open Scope Z_scope.

(** The last three samples, oldest first. *)
Definition hist : Type := Z * Z * Z.
Definition pred_of (t : hist) : Z := let '(a, b, c) := t in predict a b c.
Definition shift (t : hist) (q : Z) : hist := let '(a, b, c) := t in (b, c, q).

(** Prediction errors of [qs] after history [t]. *)
Fixpoint diffs (t : hist) (qs : list Z) : list Z :=
  match qs with
  | [] => []
  | q :: qs => (q - pred_of t) :: diffs (shift t q) qs
  end.
(** What is stored: the errors limited to 16 bits. *)
Definition limit (d : Z) : Z := Z.max (-32767) (Z.min 32766 d).
Definition residuals (t : hist) (qs : list Z) : list Z := map limit (diffs t qs).

(** What a decoder makes of stored residuals. *)
Fixpoint reconstruct (t : hist) (es : list Z) : list Z :=
  match es with
  | [] => []
  | e :: es =>
      let q := Z.max (-32768) (Z.min 32767 (e + pred_of t)) in
      q :: reconstruct (shift t q) es
  end.

(** Number of bits the errors [ds] take with exponent [k]. *)
Definition cost (k : Z) (ds : list Z) : Z :=
  fold_right Z.add 0 (map (fun d => Z.abs d / 2 ^ k + k + 2) ds).
(** The least cheapest exponent among 1..15. *)
Definition best_exponent (ds : list Z) : Z :=
  fold_left (fun b k => if cost k ds <? cost b ds then k else b)
            [2; 3; 4; 5; 6; 7; 8; 9; 10; 11; 12; 13; 14; 15] 1.

(** One stored frame: one encode call's samples of one channel. *)
Record frame := mkFrame {
  fr_init : bool;        (* first frame of its channel *)
  fr_hist : hist;        (* history the residuals start from *)
  fr_e : Z;
  fr_raw : list Z;       (* samples stored verbatim *)
  fr_res : list Z }.     (* stored residuals *)

Definition fr_size (f : frame) : Z := zlen (fr_raw f) + zlen (fr_res f).
Definition fr_bits (f : frame) : list bool :=
  flat_map (fun q => bits_le 16 (uwrap 16 q)) (fr_raw f) ++ flat_map (rice (fr_e f)) (fr_res f).

(** The frame for samples [qs] of a channel that has history [st] (none at the start). *)
Definition make_frame (st : option hist) (qs : list Z) : frame :=
  match st with
  | Some t => mkFrame false t (best_exponent (diffs t qs)) [] (residuals t qs)
  | None =>
      let t := (nth 0 qs 0, nth 1 qs 0, nth 2 qs 0) in
      let rest := skipn 3 qs in
      mkFrame true t (best_exponent (diffs t rest)) (firstn 3 qs) (residuals t rest)
  end.
Definition next_hist (st : option hist) (qs : list Z) : hist :=
  match st with
  | Some t => fold_left shift qs t
  | None => fold_left shift qs (0, 0, 0)
  end.

(** What a decoder with history [st] makes of a frame, and its history afterwards. *)
Definition decode_values (st : option hist) (f : frame) : list Z :=
  match st with
  | Some t => reconstruct t (fr_res f)
  | None =>
      let t := (nth 0 (fr_raw f) 0, nth 1 (fr_raw f) 0, nth 2 (fr_raw f) 0) in
      fr_raw f ++ reconstruct t (fr_res f)
  end.
