(** * Specification vocabulary: a codec that holds a recording is a player

    [playback] (decode calls, rewinds and seeks) is in Spec/Frames.v, [target_block],
    [call_start] and [resumed] in Spec/Seeking.v, the recording itself in Spec/Recording.v. *)
From Coq Require Import ZArith List Bool.
From Verif Require Import Model.Base Model.F32 Model.Sample Model.Adhoc Spec.Codec Spec.Recording Spec.Frames Spec.Seeking.
Import ListNotations.
Open Scope Z_scope.

(** What a client asks of a codec: to play, to change the level, to tell the number of samples
    and the stream info. *)
Inductive request := Play (op : playback) | SetLevel (level : Z) | CountSamples | AskInfo.
(** What it gets: the buffer and the report of a decode call, nothing, a number, a stream info,
    or a panic. *)
Inductive answer :=
  | Filled (buf : list f32) (n : option Z) | Done | Number (n : Z) | Facts (info : stream_info)
  | Panicked | Hung.

(** ** What the codec answers *)
Definition respond {A} (o : outcome A) (good : A -> adhoc * answer) : option adhoc * answer :=
  match o with
  | Ok a => let '(c, r) := good a in (Some c, r)
  | Panic _ => (None, Panicked)
  | OutOfFuel => (None, Hung)
  end.
Definition ask (p : profile) (c : adhoc) (r : request) : option adhoc * answer :=
  match r with
  | Play (Listen buf) => respond (ad_decode p c buf) (fun '(c, out, n) => (c, Filled out n))
  | Play Rewind => (Some (ad_init c), Done)
  | Play (SeekTo dt) => respond (ad_seek p c dt) (fun c => (c, Done))
  | SetLevel level => (Some (ad_with_level c level), Done)
  | CountSamples => respond (ad_sample_count p c) (fun n => (c, Number n))
  | AskInfo => respond (ad_info c) (fun info => (c, Facts info))
  end.
(** All answers, up to the first panic. *)
Fixpoint conversation (p : profile) (rs : list request) (c : adhoc) : list answer :=
  match rs with
  | [] => []
  | r :: rs => match ask p c r with (Some c, a) => a :: conversation p rs c | (None, a) => [a] end
  end.
(** The codec after all requests, if none panics. *)
Fixpoint codec_after (p : profile) (rs : list request) (c : adhoc) : option adhoc :=
  match rs with
  | [] => Some c
  | r :: rs => match fst (ask p c r) with Some c => codec_after p rs c | None => None end
  end.

(** ** What a player answers *)
(** The samples of a recording made at [level] from block [t] on, not scaled up again. *)
Definition tape_from (level ch : Z) (pcms : list (list f32)) (t : Z) : list f32 :=
  let s := call_start ch t pcms in
  interleave (f32_of_Z 0) (Z.to_nat (total_blocks ch pcms - t))
    (map (fun c => map restore_in_range (skipn (Z.to_nat (t - s)) (resumed s (quant_signal (inv_gain level) ch pcms c))))
         (range ch)).
(** A player has samples left to play and a volume. *)
Record player := mkPlayer { left : list f32; volume : f32 }.
(** How many samples a call fills in: whole blocks, as many as fit and are left. *)
Definition share (ch : Z) (pl : player) (buf : list f32) : nat :=
  Nat.min (Z.to_nat (ch * (zlen buf / ch))) (length (left pl)).
Section Player.
Variables (info : stream_info) (level : Z) (pcms : list (list f32)).
Let ch := si_channels info.
Definition wind (pl : player) (t : Z) : option player * answer := (Some (mkPlayer (tape_from level ch pcms t) (volume pl)), Done).
Definition reply (pl : player) (r : request) : option player * answer :=
  match r with
  | Play (Listen buf) =>
      let n := share ch pl buf in
      (Some (mkPlayer (skipn n (left pl)) (volume pl)),
       Filled (map (fun x => fmul x (volume pl)) (firstn n (left pl) ++ skipn n buf))
              (if (n =? 0)%nat then None else Some (Z.of_nat n)))
  | Play Rewind => wind pl 0
  | Play (SeekTo (SStart ms)) =>
      if ms =? 0 then wind pl 0
      else if (target_block info ms <=? total_blocks ch pcms) && negb (zlen pcms =? 0)
           then wind pl (target_block info ms)
           else (None, Panicked)
  | Play (SeekTo _) => (None, Panicked)
  | SetLevel level => (Some (mkPlayer (left pl) (gain level)), Done)
  | CountSamples => (Some pl, Number (total_blocks ch pcms))
  | AskInfo => (Some pl, Facts info)
  end.
Fixpoint replies (rs : list request) (pl : player) : list answer :=
  match rs with
  | [] => []
  | r :: rs => match reply pl r with (Some pl, a) => a :: replies rs pl | (None, a) => [a] end
  end.
End Player.
(** The level set last. *)
Definition level_after (level : Z) (rs : list request) : Z :=
  fold_left (fun l r => match r with SetLevel l => l | _ => l end) rs level.

(** Requests that exist: levels are unsigned; and whose seek targets can be counted in samples
    with 64 bits, which matters only without overflow checks. *)
Definition askable (p : profile) (info : stream_info) (r : request) : Prop :=
  match r with
  | SetLevel level => 0 <= level < 2 ^ 32
  | Play (SeekTo (SStart ms)) => p = Debug \/ target_block info ms * si_channels info < 2 ^ 64
  | _ => True
  end.
