(** * Specification vocabulary: WAV recordings and WAV files *)
From Coq Require Import ZArith List Bool.
From Verif Require Import Model.Base Model.F32 Model.Sample Spec.Recording.
Import ListNotations.
Open Scope Z_scope.

(** ** Samples as bytes *)
Definition is_i16 (s : Z) : Prop := -32768 <= s <= 32767.
Definition is_byte (b : Z) : Prop := 0 <= b <= 255.
(** A 16-bit sample in two's complement, low byte first. *)
Definition bytes16 (s : Z) : list Z := [s mod 256; (s / 256) mod 256].
Definition pcm_bytes (track : list Z) : list Z := flat_map bytes16 track.

(** ** Recording and playing *)
(** Samples [xs] written over a track from position [c] on, the track growing if need be. *)
Definition overwrite (track : list Z) (c : nat) (xs : list Z) : list Z :=
  firstn c track ++ xs ++ skipn (c + length xs) track.
(** Filling a buffer from what is left to play: whole blocks only. Returns what is left
    afterwards, the buffer, and the number of samples reported. *)
Definition fill (ch : Z) (rest buf : list f32) : list f32 * (list f32 * option Z) :=
  let n := Z.min (ch * (zlen buf / ch)) (zlen rest) in
  (skipn (Z.to_nat n) rest,
   (firstn (Z.to_nat n) rest ++ skipn (Z.to_nat n) buf, if n =? 0 then None else Some n)).
Fixpoint fill_all (ch : Z) (rest : list f32) (bufs : list (list f32)) : list (list f32 * option Z) :=
  match bufs with
  | [] => []
  | buf :: bufs => let '(rest, r) := fill ch rest buf in r :: fill_all ch rest bufs
  end.

(** ** Seeking *)
(** Blocks between two points [ms] milliseconds apart, in single precision, rounded towards
    zero and limited to 64 bits. *)
Definition block_offset (info : stream_info) (ms : Z) : Z :=
  f32_as_i64 (fmul (fdiv (f32_of_Z (si_rate info)) (f32_of_Z 1000)) (f32_of_Z ms)).

(** ** Files *)
(** The bytes "data". *)
Definition data_tag : list Z := [100; 97; 116; 97].
Definition tag_at (file : list Z) (pos : nat) : Prop := firstn 4 (skipn pos file) = data_tag.
(** The first "data" in the first 256 bytes of a file is at [pos]. *)
Definition first_tag (file : list Z) (pos : nat) : Prop :=
  tag_at (firstn 256 file) pos /\ forall i, (i < pos)%nat -> ~ tag_at (firstn 256 file) i.
(** Unsigned little-endian number of [n] bytes at offset [o]. *)
Fixpoint number (l : list Z) : Z := match l with [] => 0 | b :: t => b + 256 * number t end.
Definition number_at (file : list Z) (o n : nat) : Z := number (firstn n (skipn o file)).

(** The 44 header bytes of a 16-bit PCM file with [n] bytes of samples. *)
Fixpoint digits (k : nat) (x : Z) : list Z := match k with O => [] | S k => x mod 256 :: digits k (x / 256) end.
Definition canonical_header (rate ch n : Z) : list Z :=
  [82; 73; 70; 70] ++ digits 4 (36 + n) ++ [87; 65; 86; 69] ++ [102; 109; 116; 32] ++ digits 4 16
  ++ digits 2 1 ++ digits 2 ch ++ digits 4 rate ++ digits 4 (rate * ch * 2) ++ digits 2 (ch * 2) ++ digits 2 16
  ++ data_tag ++ digits 4 n.
(** Formats whose header fields do not overflow: fewer than 2048 channels, fewer than 2^27
    samples per second over all channels. *)
Definition format_fits (info : stream_info) : Prop :=
  1 <= si_channels info < 2048 /\ 1 <= si_rate info /\ si_rate info * si_channels info < 2 ^ 27.
