(** * The samples of one channel of a recording *)
From Coq Require Import ZArith List.
From Verif Require Import Model.Base Model.F32.
Import ListNotations.
Open Scope Z_scope.

(** Channel [c] of the whole blocks of the slices [pcms], in order. *)
Definition track (ch c : Z) (pcms : list (list f32)) : list f32 :=
  flat_map (fun pcm => map (fun k => nth (Z.to_nat (k * ch + c)) pcm (f32_of_Z 0)) (range (zlen pcm / ch))) pcms.
