(** * Specification vocabulary: what the encoder stores for one call and channel *)
From Coq Require Import ZArith List.
From Verif Require Import Model.Base Model.F32 Model.Sample Model.BitStream Model.Frame Model.Adhoc Spec.Bits Spec.Codec Spec.Recording.
Import ListNotations.
Open Scope Z_scope.

(** The quantised samples of channel [j], one list per encode call. *)
Definition channel_calls (level ch : Z) (pcms : list (list f32)) (j : nat) : list (list Z) :=
  map (fun call => nth j call []) (quant_calls (inv_gain level) 0 ch pcms).
(** Samples of the calls before call [i], and of call [i]. *)
Definition before (calls : list (list Z)) (i : nat) : list Z := concat (firstn i calls).
Definition at_call (calls : list (list Z)) (i : nat) : list Z := nth i calls [].

(** The prediction error of sample [t] of a signal. *)
Definition error (sig : list Z) (t : nat) : Z :=
  nth t sig 0 - predict (nth (t - 3) sig 0) (nth (t - 2) sig 0) (nth (t - 1) sig 0).
(** The errors of the samples of one call, the first three samples of the signal excepted. *)
Definition errors (calls : list (list Z)) (i : nat) : list Z :=
  let b := before calls i in
  let q := at_call calls i in
  map (error (b ++ q)) (seq (Nat.max 3 (length b)) (length b + length q - Nat.max 3 (length b))).

(** Bits taken by the Rice codes of [ds] with parameter [k]. *)
Definition rice_bits (k : Z) (ds : list Z) : Z := zlen (flat_map (rice k) ds).

(** Where frame [n] starts in the bit stream; the end of the stream after the last. *)
Definition frame_start (c : adhoc) (n : Z) : outcome Z :=
  if n <? fhs_len (ad_headers c)
  then oh <- fhs_get (ad_headers c) n ;; h <- expect oh ;; Ok (fh_bit_cursor h)
  else Ok (bit_cursor (as_stream (ad_stream c))).

(** The samples lie on a quadratic: third differences vanish. *)
Definition quadratic (qs : list Z) : Prop :=
  forall t, (t + 3 < length qs)%nat ->
    nth (t + 3) qs 0 = nth t qs 0 - 3 * nth (t + 1) qs 0 + 3 * nth (t + 2) qs 0.

(** What a listener can do with a finished recording. *)
Inductive playback := Listen (buf : list f32) | Rewind | SeekTo (dt : seek_from).
Definition play (p : profile) (c : adhoc) (op : playback) : outcome adhoc :=
  match op with
  | Listen buf => '(c, _, _) <- ad_decode p c buf ;; Ok c
  | Rewind => Ok (ad_init c)
  | SeekTo dt => ad_seek p c dt
  end.
Definition play_all (p : profile) (ops : list playback) (c : adhoc) : outcome adhoc := foldM (play p) ops c.

(** Everything a client can do with a codec after creating it. *)
Inductive action := Feed (pcm : list f32) | Do (op : playback).
Definition act (p : profile) (c : adhoc) (a : action) : outcome adhoc :=
  match a with
  | Feed pcm => '(c, _) <- ad_encode p c pcm ;; Ok c
  | Do op => play p c op
  end.
Definition session (p : profile) (acts : list action) (c : adhoc) : outcome adhoc := foldM (act p) acts c.
Definition panics {A} (o : outcome A) : Prop := exists r, o = Panic r.
(** What a client hears: the buffer and the report of every decode call. *)
Definition hear (p : profile) (c : adhoc) (op : playback) : outcome (adhoc * list (list f32 * option Z)) :=
  match op with
  | Listen buf => '(c, out, k) <- ad_decode p c buf ;; Ok (c, [(out, k)])
  | _ => c <- play p c op ;; Ok (c, [])
  end.
Fixpoint hear_all (p : profile) (ops : list playback) (c : adhoc) : outcome (list (list f32 * option Z)) :=
  match ops with
  | [] => Ok []
  | op :: ops =>
      '(c, r) <- hear p c op ;;
      rs <- hear_all p ops c ;;
      Ok (r ++ rs)
  end.
