(** * Words for the theorems about damaged files *)
From Coq Require Import ZArith List.
From Verif Require Import Model.Base Model.F32 Model.Sample Model.BitStream Model.NibbleList Model.BitVec
  Model.Frame Model.Adhoc Model.Bincode.
Import ListNotations.
Open Scope Z_scope.

Definition byte (b : Z) : Prop := 0 <= b < 256.
(** [file'] is [file] with arbitrary other bytes at some of the positions [a .. b-1]. *)
Definition altered (a b : nat) (file file' : list Z) : Prop :=
  length file' = length file /\ Forall byte file' /\
  forall i, (i < a \/ b <= i)%nat -> nth i file' 0 = nth i file 0.

(** Where a saved codec's compressed samples lie in its file: 16 bytes per chunk of the bit
    stream, followed by the 32 bytes of the stream's own cursor and capacity. *)
Definition data_end (c : adhoc) : nat := length (ad_save c) - 32.
Definition data_start (c : adhoc) : nat := data_end c - 16 * length (bs_binary (as_stream (ad_stream c))).
(** Bits written so far. *)
Definition bits_used (c : adhoc) : Z := bs_cursor (as_stream (ad_stream c)).
