(** * How much a file can make a player produce *)
From Coq Require Import ZArith List.
From Verif Require Import Model.Base Model.F32 Model.Sample Model.BitStream Model.NibbleList Model.BitVec Model.Frame Model.Adhoc.
Import ListNotations.
Open Scope Z_scope.

(** The samples that decode calls one after the other report; a panic ends the series. *)
Fixpoint played (p : profile) (c : adhoc) (bufs : list (list f32)) : Z :=
  match bufs with
  | [] => 0
  | buf :: bufs =>
      match ad_decode p c buf with
      | Ok (c', _, r) => match r with Some n => n | None => 0 end + played p c' bufs
      | _ => 0
      end
  end.
(** The samples in the buffers of a codec: decoded, but not yet handed out. *)
Definition waiting (c : adhoc) : Z := fold_right Z.add 0 (map (fun fc => zlen (fc_buffer fc)) (ad_channels c)).
(** The codec after some decode calls. *)
Inductive after_calls (p : profile) : adhoc -> adhoc -> Prop :=
| NoCall c : after_calls p c c
| OneMore c c' buf out r c'' : after_calls p c c' -> ad_decode p c' buf = Ok (c'', out, r) -> after_calls p c c''.

(** How often [b] fits into [a], rounded up. *)
Definition rounded_up (a b : Z) : Z := (a + b - 1) / b.
(** A frame's entries in the tables of sizes, positions and histories take 16 bytes of a file; everything else takes 117. *)
Definition frames_that_fit (bytes : Z) : Z := (bytes - 117) / 16.
(** One frame holds at most 65535 samples, and frames are dealt out to the channels in turn. *)
Definition most_samples (channels frames : Z) : Z := 65535 * (channels * rounded_up frames channels).

(** A codec without any compressed data whose table claims [frames] frames of 65535 samples. *)
Definition bomb (info : stream_info) (frames : Z) : adhoc :=
  let n := Z.to_nat frames in
  mkAdhoc (mkFHS (mkNL [] frames) (mkBV [] 0) (repeat 65535 n) (repeat 0 n) (repeat (0, 0, 0) n) 0)
          [] (mkAS (Some info) (mkBS [] 0 0)) 0 f1 f1 0.
