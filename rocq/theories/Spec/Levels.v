(** * Recordings in which the compression level changes between encode calls *)
From Coq Require Import ZArith List Bool.
From Verif Require Import Model.Base Model.F32 Model.Sample Model.Adhoc Spec.Recording.
Import ListNotations.
Open Scope Z_scope.

(** A stretch of a recording: a level, and the slices encoded after setting it. *)
Definition stretch : Type := Z * list (list f32).
Definition encode_stretches (p : profile) (c : adhoc) (ss : list stretch) : outcome adhoc :=
  foldM (fun c s => encode_all p (ad_with_level c (fst s)) (snd s)) ss c.
(** All slices of a recording. *)
Definition slices (ss : list stretch) : list (list f32) := flat_map snd ss.
(** What is quantised: each stretch with its own level; the noise goes on. *)
Fixpoint quant_stretches (base : nat) (ch : Z) (ss : list stretch) : list (list (list Z)) :=
  match ss with
  | [] => []
  | (level, pcms) :: ss =>
      quant_calls (inv_gain level) base ch pcms
      ++ quant_stretches (base + Z.to_nat (ch * total_blocks ch pcms)) ch ss
  end.
Definition stretch_signal (ch : Z) (ss : list stretch) (c : Z) : list Z :=
  flat_map (fun call => nth (Z.to_nat c) call []) (quant_stretches 0 ch ss).
(** The level the codec has in the end. *)
Definition last_level (ss : list stretch) : Z := last (map fst ss) 0.
