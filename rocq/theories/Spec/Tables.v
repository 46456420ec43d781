(** * What the frame table of a file says about its playback *)
From Coq Require Import ZArith List Bool.
From Verif Require Import Model.Base Model.Frame.
Import ListNotations.
Open Scope Z_scope.

(** The table claims [fhs_len] frames; each needs an entry in all three lists. *)
Definition entries (h : frame_headers) : Z := Z.min (zlen (fhs_sizes h)) (Z.min (zlen (fhs_cursors h)) (zlen (fhs_hists h))).
Definition whole_table (h : frame_headers) : Prop := fhs_len h <= entries h.

(** The frames are dealt out to the channels in turn. *)
Fixpoint deal {A} (fuel n : nat) (l : list A) : list (list A) :=
  match fuel, l with
  | S fuel, _ :: _ => firstn n l :: deal fuel n (skipn n l)
  | _, _ => []
  end.
Definition turns {A} (n : Z) (l : list A) : list (list A) := deal (length l) (Z.to_nat n) l.
(** A turn plays as many blocks as its longest frame has samples; the first frame of a channel
    has at least the three samples it starts with. *)
Definition longest (first : bool) (turn : list Z) : Z :=
  fold_right Z.max 0 (map (fun size => if first then Z.max 3 size else size) turn).
Definition blocks_in_turns (first : bool) (ts : list (list Z)) : list Z :=
  match ts with [] => [] | t :: ts => longest first t :: map (longest false) ts end.
(** The blocks that the first [k] frames play, turn by turn. *)
Definition played_by (h : frame_headers) (channels k : Z) : list Z :=
  blocks_in_turns true (turns channels (firstn (Z.to_nat k) (fhs_sizes h))).
(** Players give up after too many turns without samples. *)
Definition no_nine_empty (l : list Z) : Prop := forall a b, l <> a ++ repeat 0 9 ++ b.
Definition total (l : list Z) : Z := fold_right Z.add 0 l.
(** The turns all of whose frames have entries. *)
Definition full_turns (channels k : Z) : Z := channels * (k / channels).
