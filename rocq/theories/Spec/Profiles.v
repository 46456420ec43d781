(** * Words for the theorems about debug and release builds *)
From Coq Require Import ZArith List.
From Verif Require Import Model.Base Model.Sample Model.F32 Model.Adhoc Model.Wav Spec.Targets.
Import ListNotations.

(** [d] is what a debug build makes of a call and [r] what a release build makes of it: the same result or the same panic, unless
    the debug build stopped at an operation that overflowed. *)
Definition same_unless_overflow {A} (d r : outcome A) : Prop := d = r \/ d = Panic ArithmeticOverflow.

(** A program with any number of codecs.  What it does next may depend on every answer it got. *)
Inductive client :=
| Stop
| Adhoc (i : nat) (k : call) (next : reply -> client)
| Wave (i : nat) (k : wcall) (next : reply -> client)
| NewAdhoc (i : nat) (next : client)
| NewWave (i : nat) (info : stream_info) (next : client).

Definition set {A} (f : nat -> A) (i : nat) (a : A) : nat -> A := fun j => if Nat.eqb i j then a else f j.

(** The answers a program gets, and how it ends. *)
Fixpoint talk (p : profile) (L : library) (M : wlibrary) (cl : client) (cs : nat -> adhoc) (vs : nat -> wav) : list reply * outcome unit :=
  match cl with
  | Stop => ([], Ok tt)
  | Adhoc i k next =>
      match perform L (cs i) k with
      | Ok (c, r) => let '(rs, o) := talk p L M (next r) (set cs i c) vs in (r :: rs, o)
      | Panic e => ([], Panic e)
      | OutOfFuel => ([], OutOfFuel)
      end
  | Wave i k next =>
      match wperform p M (vs i) k with
      | Ok (v, r) => let '(rs, o) := talk p L M (next r) cs (set vs i v) in (r :: rs, o)
      | Panic e => ([], Panic e)
      | OutOfFuel => ([], OutOfFuel)
      end
  | NewAdhoc i next => talk p L M next (set cs i ad_new) vs
  | NewWave i info next => talk p L M next cs (set vs i (wav_new info))
  end.
(** Before a program makes its own codecs, all are new ones. *)
Definition session (p : profile) (L : library) (M : wlibrary) (cl : client) : list reply * outcome unit :=
  talk p L M cl (fun _ => ad_new) (fun _ => wav_new (mkInfo 44100 2)).
