(** * A tape recorder

    What a WavCodec should be to its user, whatever calls are made in whatever order. *)
From Coq Require Import ZArith List Bool.
From Verif Require Import Model.Base Model.F32 Model.Sample Model.Adhoc Model.Wav Spec.Recording Spec.Wave.
Import ListNotations.
Open Scope Z_scope.

Inductive action := Rec (samples : list f32) | Play (buf : list f32) | Wind (dt : seek_from).
Inductive answer := Recorded (n : option Z) | Played (buf : list f32) (n : option Z) | Wound.

(** The samples on the tape and where it stands. *)
Record tape := mkTape { tp_track : list Z; tp_at : Z }.
Definition blank : tape := mkTape [] 0.

(** The place a seek asks for; from the end is the same as from the start. *)
Definition goal_of (info : stream_info) (t : tape) (dt : seek_from) : Z :=
  let ch := si_channels info in
  match dt with
  | SStart ms | SEnd ms => ch * block_offset info ms
  | SCurrent ms => ch * (tp_at t / ch) + ch * block_offset info ms
  end.
(** Recording writes whole blocks over what is there, playing fills whole blocks, winding
    stays on the tape, and an empty tape cannot be wound. *)
Definition tape_step (info : stream_info) (t : tape) (a : action) : option (tape * answer) :=
  let ch := si_channels info in
  match a with
  | Rec samples =>
      let new := map quantise (whole ch samples) in
      Some (mkTape (overwrite (tp_track t) (Z.to_nat (tp_at t)) new) (tp_at t + zlen new), Recorded (Some (zlen new)))
  | Play buf =>
      let rest := skipn (Z.to_nat (tp_at t)) (map restore (tp_track t)) in
      let '(rest', (buf', n)) := fill ch rest buf in
      Some (mkTape (tp_track t) (zlen (tp_track t) - zlen rest'), Played buf' n)
  | Wind dt =>
      match tp_track t with
      | [] => None
      | _ => Some (mkTape (tp_track t) (Z.max 0 (Z.min (goal_of info t dt) (zlen (tp_track t) - 1))), Wound)
      end
  end.
Fixpoint tape_run (info : stream_info) (t : tape) (acts : list action) : option (tape * list answer) :=
  match acts with
  | [] => Some (t, [])
  | a :: acts =>
      match tape_step info t a with
      | None => None
      | Some (t, r) => match tape_run info t acts with Some (t, rs) => Some (t, r :: rs) | None => None end
      end
  end.
