(** * Vectors that grow

    What an allocator makes of the requests in a log.  A vector has a capacity.  A request beyond it replaces the block by one of a
    larger capacity and moves the entries.  [g v cap n] is the new capacity of the vector [v] when it has [cap] and needs [n]. *)
From Coq Require Import ZArith List Bool.
From Verif Require Import Model.Base Model.F32 Model.Sample Model.BitStream Model.NibbleList Model.BitVec Model.Frame Model.Adhoc Model.Wav Model.Allocs.
Import ListNotations.
Open Scope Z_scope.

Definition vector_eq_dec (a b : vector) : {a = b} + {a <> b}.
Proof. repeat decide equality. Defined.
Definition set_capacity (caps : vector -> Z) (v : vector) (n : Z) : vector -> Z := fun u => if vector_eq_dec u v then n else caps u.

(** How often the allocator is called. *)
Fixpoint allocations (g : vector -> Z -> Z -> Z) (caps : vector -> Z) (rs : list (vector * Z)) : Z :=
  match rs with
  | [] => 0
  | (v, n) :: rs => if n <=? caps v then allocations g caps rs else 1 + allocations g (set_capacity caps v (g v (caps v) n)) rs
  end.
(** How many entries are moved: at most as many as the old block has room for. *)
Fixpoint moved (g : vector -> Z -> Z -> Z) (caps : vector -> Z) (rs : list (vector * Z)) : Z :=
  match rs with
  | [] => 0
  | (v, n) :: rs => if n <=? caps v then moved g caps rs else caps v + moved g (set_capacity caps v (g v (caps v) n)) rs
  end.
(** The capacities afterwards. *)
Fixpoint capacities (g : vector -> Z -> Z -> Z) (caps : vector -> Z) (rs : list (vector * Z)) : vector -> Z :=
  match rs with
  | [] => caps
  | (v, n) :: rs => if n <=? caps v then capacities g caps rs else capacities g (set_capacity caps v (g v (caps v) n)) rs
  end.

(** What the standard library's vectors do: the new capacity is at least twice the old one and enough.  (It is the larger of the
    two, and at least 8 for bytes and at least 4 for entries of up to 1024 bytes.) *)
Definition doubling (g : vector -> Z -> Z -> Z) : Prop := forall v cap n, 0 <= cap < n -> 2 * cap <= g v cap n /\ n <= g v cap n.
Definition moderate (g : vector -> Z -> Z -> Z) : Prop := forall v cap n, 0 <= cap < n -> g v cap n <= Z.max 8 (Z.max (2 * cap) n).
Definition rust_growth (v : vector) (cap n : Z) : Z :=
  Z.max (Z.max (2 * cap) n) (match v with Table Exponents | Pcm => 8 | _ => 4 end).
(** [Vec::new] and [VecDeque::new]. *)
Definition nothing : vector -> Z := fun _ => 0.

(** The logs of encode and decode calls one after the other; a panic ends the series. *)
Fixpoint encode_log (p : profile) (c : adhoc) (pcms : list (list f32)) : list (vector * Z) :=
  match pcms with
  | [] => []
  | pcm :: pcms => log (ad_encodeL p c pcm) ++ match ad_encode p c pcm with Ok (c', _) => encode_log p c' pcms | _ => [] end
  end.
Fixpoint decode_log (p : profile) (c : adhoc) (bufs : list (list f32)) : list (vector * Z) :=
  match bufs with
  | [] => []
  | buf :: bufs => log (ad_decodeL p c buf) ++ match ad_decode p c buf with Ok (c', _, _) => decode_log p c' bufs | _ => [] end
  end.
Fixpoint wav_log (p : profile) (w : wav) (pcms : list (list f32)) : list (vector * Z) :=
  match pcms with
  | [] => []
  | pcm :: pcms => log (wav_encodeL p w pcm) ++ match wav_encode p w pcm with Ok (w', _) => wav_log p w' pcms | _ => [] end
  end.

(** Bytes of an entry: u128, u8, u64, u16, u64, [i16; 3], f32, f32, u8. *)
Definition entry_bytes (v : vector) : Z :=
  match v with
  | Table Chunks => 16 | Table Exponents => 1 | Table Flags => 8 | Table Sizes => 2 | Table Positions => 8 | Table Histories => 6
  | Scratch => 4 | Buffer _ => 4 | Pcm => 1
  end.
(** The vectors an encode call uses. *)
Definition recording_vectors : list vector := map Table [Chunks; Exponents; Flags; Sizes; Positions; Histories] ++ [Scratch].
Definition bytes_held (caps : vector -> Z) (vs : list vector) : Z := fold_right (fun v b => entry_bytes v * caps v + b) 0 vs.

(** How long the vectors of a codec are.  (The scratch vector is not part of the model's state.) *)
Definition length_of (c : adhoc) (v : vector) : Z :=
  match v with
  | Table Chunks => zlen (bs_binary (as_stream (ad_stream c)))
  | Table Exponents => zlen (nl_data (fhs_exps (ad_headers c)))
  | Table Flags => zlen (bv_binary (fhs_inits (ad_headers c)))
  | Table Sizes => zlen (fhs_sizes (ad_headers c))
  | Table Positions => zlen (fhs_cursors (ad_headers c))
  | Table Histories => zlen (fhs_hists (ad_headers c))
  | Buffer j => match nth_error (ad_channels c) (Z.to_nat j) with Some fc => if 0 <=? j then zlen (fc_buffer fc) else 0 | None => 0 end
  | Scratch | Pcm => 0
  end.
