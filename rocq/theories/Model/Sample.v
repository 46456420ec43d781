(** * Model of the sample conversions and StreamInfo of src/codec.rs *)
From Coq Require Import ZArith List.
From Verif Require Import Model.Base Model.F32 Model.Parabola.
Open Scope Z_scope.

(** codec.rs:15.  [NORMALIZE_FACTOR = 1.0 / i16::MAX as f32]. *)
Definition NORMALIZE_FACTOR : f32 := fdiv f1 (f32_of_Z 32767).

(** codec.rs:17-23.  [normalize_sample]. *)
Definition normalize_sample (n : Z) : f32 := fmul (f32_of_Z n) NORMALIZE_FACTOR.

(** codec.rs:25-27.  [truncate_sample]. *)
Definition truncate_sample (s : f32) : Z :=
  f32_as_i16 (fmul (fclamp s fm1 f1) (f32_of_Z 32767)).

(** codec.rs:33-38.  [StreamInfo { sample_rate : u32, channels : u32 }]. *)
Record stream_info := mkInfo { si_rate : Z; si_channels : Z }.

(** frame.rs:235-241, 272-278, 321-327, 348-354, 382-388.  The prediction, the same
    expression in all five places: the parabola through the last three samples
    ([h3] oldest, [h1] newest), normalised, evaluated at 3 and truncated. *)
Definition predict (h3 h2 h1 : Z) : Z :=
  truncate_sample
    (parabola_eval
       (compute_coefs (normalize_sample h3) (normalize_sample h2) (normalize_sample h1))
       f3).
