(** * Words for the theorems about the layout of .adhoc files *)
From Coq Require Import ZArith List.
From Verif Require Import Model.Base Spec.Wave.
Import ListNotations.
Open Scope Z_scope.

(** A table of entries of [w] bytes: eight bytes that count the entries (the lowest first), and the entries. *)
Definition table (w : Z) (t : list Z) : Prop :=
  exists count entries, t = count ++ entries /\ zlen count = 8 /\ zlen entries = w * number count.

(** The parts of an .adhoc file in the order in which they stand there. *)
Record parts := mkParts {
  p_level : list Z;        (* the compression level *)
  p_nibbles : list Z;      (* the parameters of the frames, two to a byte *)
  p_nibble_count : list Z;
  p_flags : list Z;        (* which frames are first frames of a channel, 64 to an entry *)
  p_flag_count : list Z;
  p_sizes : list Z;        (* samples in each frame *)
  p_offsets : list Z;      (* where the frames start in the bit stream *)
  p_histories : list Z;    (* the three samples before each frame *)
  p_frame : list Z;        (* the frame the codec was at when it was saved *)
  p_tag : Z;               (* whether rate and channels follow *)
  p_rate : list Z;
  p_channels : list Z;
  p_chunks : list Z;       (* the bit stream, 128 bits to an entry *)
  p_bit : list Z;          (* the bit the codec was at when it was saved *)
  p_capacity : list Z }.
Definition file_of (t : parts) : list Z :=
  p_level t ++ p_nibbles t ++ p_nibble_count t ++ p_flags t ++ p_flag_count t ++ p_sizes t ++ p_offsets t ++ p_histories t ++ p_frame t
  ++ [p_tag t] ++ p_rate t ++ p_channels t ++ p_chunks t ++ p_bit t ++ p_capacity t.
Record well_formed (t : parts) : Prop := {
  wf_level : zlen (p_level t) = 4;
  wf_nibbles : table 1 (p_nibbles t);
  wf_nibble_count : zlen (p_nibble_count t) = 4;
  wf_flags : table 8 (p_flags t);
  wf_flag_count : zlen (p_flag_count t) = 16;
  wf_sizes : table 2 (p_sizes t);
  wf_offsets : table 8 (p_offsets t);
  wf_histories : table 6 (p_histories t);
  wf_frame : zlen (p_frame t) = 4;
  wf_tag : p_tag t = 1;
  wf_rate : zlen (p_rate t) = 4;
  wf_channels : zlen (p_channels t) = 4;
  wf_chunks : table 16 (p_chunks t);
  wf_bit : zlen (p_bit t) = 16;
  wf_capacity : zlen (p_capacity t) = 16 }.
(** The same file with both positions at the start. *)
Definition rewound (t : parts) : parts :=
  mkParts (p_level t) (p_nibbles t) (p_nibble_count t) (p_flags t) (p_flag_count t) (p_sizes t) (p_offsets t) (p_histories t)
    (repeat 0 4) (p_tag t) (p_rate t) (p_channels t) (p_chunks t) (repeat 0 16) (p_capacity t).
