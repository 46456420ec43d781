(** * Specification vocabulary: which WAV files the command line tool converts *)
From Coq Require Import ZArith List Bool.
From Verif Require Import Model.Base Model.F32 Model.Sample Spec.Recording Spec.Frames Spec.Wave.
Import ListNotations.
Open Scope Z_scope.

(** What decides, all read from the bytes of the file: where "data" first stands, the format, the bits of
    a sample, the channels (a negative 16-bit number is taken for one near 2^32) and the samples, which are
    all that follows the data header. *)
Definition late_tag (file : list Z) : Prop := 256 <= zlen file /\ exists pos, first_tag file pos /\ (248 < pos)%nat.
Definition sample_bits (file : list Z) : Z := number_at file 34 2.
Definition accepted (file : list Z) (pos : nat) : Prop :=
  256 <= zlen file /\ first_tag file pos /\ (pos <= 248)%nat /\
  number_at file 20 2 = 1 /\ (sample_bits file = 8 \/ sample_bits file = 16).
Definition channels_in (file : list Z) : Z :=
  let c := number_at file 22 2 in if c <? 32768 then c else c + 2 ^ 32 - 2 ^ 16.
Definition samples_in (file : list Z) (pos : nat) : Z :=
  let n := zlen file - (Z.of_nat pos + 8) in if sample_bits file =? 8 then n else n / 2.
(** Files the tool cannot encode: no channels, or some samples but not three blocks of them among the first 1024. *)
Definition too_short (ch n : Z) : Prop := ch = 0 \/ 1 <= ch <= 1024 /\ 0 < n /\ (342 <= ch \/ n < 3 * ch).

(** [calls] is [l] cut into pieces of [n] entries, of which only the last may be shorter. *)
Definition cut_into {A} (n : Z) (l : list A) (calls : list (list A)) : Prop :=
  concat calls = l /\ Forall (fun x => 0 < zlen x <= n) calls /\
  forall a x b, calls = a ++ x :: b -> b <> [] -> zlen x = n.
(** The prediction errors [ds] of one channel in one call make exponent 15 the only best one. *)
Definition only_fifteen (ds : list Z) : Prop :=
  ds <> [] /\ forall k, 1 <= k <= 14 -> rice_bits 15 ds < rice_bits k ds.
