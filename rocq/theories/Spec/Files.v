(** * Words for the theorems about .adhoc files *)
From Coq Require Import ZArith List.
From Verif Require Import Model.Base Model.F32 Model.Sample Model.BitStream Model.NibbleList Model.BitVec
  Model.Frame Model.Adhoc.
Import ListNotations.
Open Scope Z_scope.

(** ** Values that fit their Rust types
    The model uses unbounded integers; these conditions hold of every value of the Rust types
    (a [Vec] never has 2^64 elements).  Spec/Frames.v's sessions preserve them. *)
Definition in_range_u (w x : Z) : Prop := 0 <= x < 2 ^ w.
Definition history_fits (t : Z * Z * Z) : Prop :=
  let '(a, b, c) := t in -32768 <= a <= 32767 /\ -32768 <= b <= 32767 /\ -32768 <= c <= 32767.
Record headers_fit (h : frame_headers) : Prop := {
  hf_exps_len : zlen (nl_data (fhs_exps h)) < 2 ^ 64;
  hf_exps : Forall (in_range_u 8) (nl_data (fhs_exps h));
  hf_count : in_range_u 32 (nl_count (fhs_exps h));
  hf_inits_len : zlen (bv_binary (fhs_inits h)) < 2 ^ 64;
  hf_inits : Forall (in_range_u 64) (bv_binary (fhs_inits h));
  hf_bits : in_range_u 128 (bv_cursor (fhs_inits h));
  hf_sizes_len : zlen (fhs_sizes h) < 2 ^ 64;
  hf_sizes : Forall (in_range_u 16) (fhs_sizes h);
  hf_cursors_len : zlen (fhs_cursors h) < 2 ^ 64;
  hf_cursors : Forall (in_range_u 64) (fhs_cursors h);
  hf_hists_len : zlen (fhs_hists h) < 2 ^ 64;
  hf_hists : Forall history_fits (fhs_hists h);
  hf_cursor : in_range_u 32 (fhs_cursor h) }.
Record fits (c : adhoc) : Prop := {
  fits_level : in_range_u 32 (ad_level c);
  fits_headers : headers_fit (ad_headers c);
  fits_info : forall info, as_info (ad_stream c) = Some info -> in_range_u 32 (si_rate info) /\ in_range_u 32 (si_channels info);
  fits_len : zlen (bs_binary (as_stream (ad_stream c))) < 2 ^ 64;
  fits_chunks : Forall (in_range_u 128) (bs_binary (as_stream (ad_stream c)));
  fits_bit_cursor : in_range_u 128 (bs_cursor (as_stream (ad_stream c)));
  fits_capacity : in_range_u 128 (bs_capacity (as_stream (ad_stream c))) }.
(** The vectors are addressable: none has 2^64 elements. *)
Definition in_memory (c : adhoc) : Prop :=
  let h := ad_headers c in
  zlen (nl_data (fhs_exps h)) < 2 ^ 64 /\ zlen (bv_binary (fhs_inits h)) < 2 ^ 64 /\
  zlen (fhs_sizes h) < 2 ^ 64 /\ zlen (fhs_cursors h) < 2 ^ 64 /\ zlen (fhs_hists h) < 2 ^ 64 /\
  zlen (bs_binary (as_stream (ad_stream c))) < 2 ^ 64.
(** A 32-bit sample rate and channel count. *)
Definition info_fits (info : stream_info) : Prop := in_range_u 32 (si_rate info) /\ in_range_u 32 (si_channels info).
