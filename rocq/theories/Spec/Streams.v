(** * Recordings in a stream

    What resources do is in Model/Resource.v. *)
From Coq Require Import ZArith List Bool.
From Verif Require Import Model.Base Model.F32 Model.Sample Model.Adhoc Model.Bincode Model.Resource Spec.Recording Spec.Frames Spec.Files.
Import ListNotations.
Open Scope Z_scope.

(** No call of the script fails: bytes come or go in pieces of any size, calls may be interrupted. *)
Definition calm (script : list turn) : Prop := Forall (fun t => match t with Part _ | Again => True | _ => False end) script.

(** Load [n] recordings from one reader, one after the other. *)
Fixpoint load_each (p : profile) (n : nat) (s : source) : outcome (option (list adhoc * source)) :=
  match n with
  | O => Ok (Some ([], s))
  | S n =>
      r <- ad_load_from p s ;;
      match r with
      | None => Ok None
      | Some (c, s) =>
          rs <- load_each p n s ;;
          Ok (match rs with Some (cs, s) => Some (c :: cs, s) | None => None end)
      end
  end.

(** A codec a program can have: made by [new_codec] and then used in any way. *)
Definition in_use (c : adhoc) : Prop :=
  exists p info level acts, info_fits info /\ session p acts (new_codec info level) = Ok c /\ in_memory c.
