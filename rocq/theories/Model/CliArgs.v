(** * Model of src/main.rs: the arguments of the command line tool

    Texts are lists of bytes.  clap's own work (finding the options among the arguments,
    the default value "5", help and version) is not modelled: what is modelled starts with
    the values clap returns. *)
From Coq Require Import ZArith List Bool.
From Verif Require Import Model.Base Model.CliFiles.
Import ListNotations.
Open Scope Z_scope.

Definition PLUS : Z := 43.
Definition MINUS : Z := 45.
Definition U32_MAX : Z := 4294967295.

(** std's [char::to_digit(10)] of one byte. *)
Definition to_digit (b : Z) : option Z := if (48 <=? b) && (b <=? 57) then Some (b - 48) else None.

(** The loop of std's [u32::from_str]: [checked_mul(10)], then [checked_add]; any failure
    is an error. *)
Fixpoint parse_digits (acc : Z) (l : bytes) : option Z :=
  match l with
  | [] => Some acc
  | b :: t =>
      match to_digit b with
      | None => None
      | Some d =>
          if U32_MAX <? acc * 10 then None
          else if U32_MAX <? acc * 10 + d then None
          else parse_digits (acc * 10 + d) t
      end
  end.
(** std's [u32::from_str]: empty text and a lone sign are errors, a leading '+' is skipped,
    a leading '-' is not (and then is not a digit). *)
Definition parse_u32 (s : bytes) : option Z :=
  match s with
  | [] => None
  | b :: t =>
      match t with
      | [] => if (b =? PLUS) || (b =? MINUS) then None else parse_digits 0 s
      | _ => if b =? PLUS then parse_digits 0 t else parse_digits 0 s
      end
  end.

(** main.rs:74-77.  The compression level from the option's text. *)
Definition option_level (arg : option bytes) : Z :=
  match arg with
  | None => 5
  | Some s => match parse_u32 s with Some n => n | None => 5 end
  end.

(** main.rs:64-86.  A run of the tool: [is_dir] tells whether the output directory exists;
    every input file becomes a job.  The schedule is as in [run_jobs]. *)
Definition run_tool (p : profile) (is_dir : bytes -> bool) (out_dir : bytes) (level_arg : option bytes)
  (inputs : list path) (schedule : list nat) (f : files) : files :=
  if is_dir out_dir
  then fst (run_jobs p (option_level level_arg) out_dir schedule f (map new_job inputs))
  else f.
