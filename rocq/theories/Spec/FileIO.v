(** * What a run of the command line tool may do to the files *)
From Coq Require Import ZArith List Bool.
From Verif Require Import Model.Base Model.CliFiles Model.CliIO.
Import ListNotations.

(** The file that conversion [k] of input [x] is written to, if it can be created. *)
Definition out_file (d : disk) (dir : bytes) (x : path) (k : kind) : option nat :=
  match out_name k (snd x) with Some n => creates d (dir, n) | None => None end.
(** What conversion [k] makes of input [x] as it was in [f]: nothing, or what saving gives. *)
Definition converted (p : profile) (level : Z) (d : disk) (f : store) (x : path) (k : kind) : option (outcome bytes) :=
  match opens d x with
  | Some id =>
      match f id with
      | Some b => match compute p level k b with Ok r => r | _ => None end
      | None => None
      end
  | None => None
  end.
(** Conversion [k] of [x] cannot be carried out: the input cannot be read or converted, or the output cannot be created. *)
Definition stuck (p : profile) (level : Z) (d : disk) (dir : bytes) (f : store) (x : path) (k : kind) : Prop :=
  out_file d dir x k = None \/ forall b, converted p level d f x k <> Some (Ok b).

(** All output files of an input. *)
Definition out_files (d : disk) (dir : bytes) (x : path) : list nat :=
  flat_map (fun k => match out_file d dir x k with Some o => [o] | None => [] end) (kinds_of (snd x)).
(** No two outputs are the same file and no output is an input. *)
Definition apart (d : disk) (dir : bytes) (inputs : list path) : Prop :=
  NoDup (flat_map (out_files d dir) inputs) /\
  forall x id, In x inputs -> opens d x = Some id -> ~ In id (flat_map (out_files d dir) inputs).
