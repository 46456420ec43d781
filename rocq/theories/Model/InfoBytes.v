(** * Model of [StreamInfo::as_bytes] (codec.rs:55-58)

    [StreamInfo] (codec.rs:32-37) has Rust's own layout, of which the language promises only that the fields are
    aligned and do not overlap and that the size is a multiple of the alignment.  So the layout is a parameter:
    the size of the struct and the offsets of the two [u32] fields. *)
From Coq Require Import ZArith List Bool.
From Verif Require Import Model.Base Model.Sample Model.Bincode Model.Layout.
Import ListNotations.
Open Scope Z_scope.

Record info_layout := mkLayout { il_size : Z; il_rate : Z; il_channels : Z }.
(** What the language promises. *)
Definition layout_legal (l : info_layout) : Prop :=
  0 <= il_rate l /\ 0 <= il_channels l /\
  il_rate l mod 4 = 0 /\ il_channels l mod 4 = 0 /\ il_size l mod 4 = 0 /\
  il_rate l + 4 <= il_size l /\ il_channels l + 4 <= il_size l /\
  (il_rate l + 4 <= il_channels l \/ il_channels l + 4 <= il_rate l).

(** codec.rs:55-58.  [as_bytes]: the [size_of::<StreamInfo>()] bytes from the address of the struct on; a byte outside both
    fields holds nothing ([None]). *)
Definition info_byte (en : endian) (l : info_layout) (i : stream_info) (o : Z) : option Z :=
  if (il_rate l <=? o) && (o <? il_rate l + 4) then Some (nth (Z.to_nat (o - il_rate l)) (int_image en 4 (si_rate i)) 0)
  else if (il_channels l <=? o) && (o <? il_channels l + 4) then Some (nth (Z.to_nat (o - il_channels l)) (int_image en 4 (si_channels i)) 0)
  else None.
Definition info_as_bytes (en : endian) (l : info_layout) (i : stream_info) : list (option Z) :=
  map (info_byte en l i) (range (il_size l)).
