(** * How long series of calls take *)
From Coq Require Import ZArith List.
From Verif Require Import Model.Base Model.F32 Model.Sample Model.BitStream Model.Frame Model.Adhoc Model.Steps.
Import ListNotations.
Open Scope Z_scope.

(** The steps of encode calls one after the other; a panic ends the series. *)
Fixpoint encode_steps (p : profile) (c : adhoc) (pcms : list (list f32)) : Z :=
  match pcms with
  | [] => 0
  | pcm :: pcms => steps (ad_encodeT p c pcm) + match ad_encode p c pcm with Ok (c', _) => encode_steps p c' pcms | _ => 0 end
  end.
(** The steps of decode calls one after the other. *)
Fixpoint decode_steps (p : profile) (c : adhoc) (bufs : list (list f32)) : Z :=
  match bufs with
  | [] => 0
  | buf :: bufs => steps (ad_decodeT p c buf) + match ad_decode p c buf with Ok (c', _, _) => decode_steps p c' bufs | _ => 0 end
  end.
(** The samples in some buffers. *)
Fixpoint samples (bufs : list (list f32)) : Z := match bufs with [] => 0 | buf :: bufs => zlen buf + samples bufs end.

(** A codec as programs can have it in memory: there is a state for each channel, the entries of the tables fit their types, there
    are fewer than 2^32 frames and fewer than 2^60 chunks of 16 bytes. *)
Record in_memory (c : adhoc) (info : stream_info) : Prop := {
  im_info : ad_info c = Ok info;
  im_channels : 0 <= si_channels info;
  im_states : zlen (ad_channels c) = si_channels info;
  im_frames : zlen (fhs_sizes (ad_headers c)) < 2 ^ 32;
  im_len : fhs_len (ad_headers c) < 2 ^ 32;
  im_sizes : Forall (fun x => 0 <= x < 2 ^ 16) (fhs_sizes (ad_headers c));
  im_cursors : Forall (fun x => 0 <= x < 2 ^ 64) (fhs_cursors (ad_headers c));
  im_next : 0 <= fhs_cursor (ad_headers c);
  im_chunks : zlen (bs_binary (as_stream (ad_stream c))) < 2 ^ 60;
  im_cursor : 0 <= bs_cursor (as_stream (ad_stream c)) < 2 ^ 69 }.
(** The samples the frame table counts, and the frames. *)
Definition table_samples (c : adhoc) : Z := fold_right Z.add 0 (fhs_sizes (ad_headers c)).
Definition table_frames (c : adhoc) : Z := zlen (fhs_sizes (ad_headers c)).
(** The bits of memory behind the stream. *)
Definition memory_bits (c : adhoc) : Z := 128 * zlen (bs_binary (as_stream (ad_stream c))).
