(** * What a run of the command line tool should do to the files *)
From Coq Require Import ZArith List Bool.
From Verif Require Import Model.Base Model.CliFiles.
Import ListNotations.

(** The files an input may be converted to. *)
Definition outputs (out_dir : bytes) (input : path) : list path :=
  flat_map (fun k => match out_name k (snd input) with Some n => [(out_dir, n)] | None => [] end) (kinds_of (snd input)).

(** No two outputs coincide and no output is also an input. *)
Definition separate (out_dir : bytes) (inputs : list path) : Prop :=
  NoDup (flat_map (outputs out_dir) inputs) /\
  forall input, In input inputs -> ~ In input (flat_map (outputs out_dir) inputs).

(** The files after [n] steps of a run with a single input.  Six steps are enough: two conversions of three steps. *)
Fixpoint alone_steps (p : profile) (level : Z) (out_dir : bytes) (n : nat) (f : files) (j : job) : files * job :=
  match n with
  | O => (f, j)
  | S n => let '(f, j) := step_job p level out_dir f j in alone_steps p level out_dir n f j
  end.
Definition alone (p : profile) (level : Z) (out_dir : bytes) (f : files) (input : path) : files :=
  fst (alone_steps p level out_dir 6 f (new_job input)).
