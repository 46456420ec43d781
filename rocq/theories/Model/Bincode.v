(** * Model of AdhocCodec::save_to / load: the bincode 1.3.3 default encoding

    bincode's default options: little-endian, fixed-width integers, u64 sequence
    lengths, a one-byte tag for [Option], struct fields in declaration order,
    trailing bytes ignored.  The reader asks for elements one by one; here a sequence
    whose claimed length exceeds the remaining bytes is rejected at once, which is the
    same result because every element takes at least one byte. *)
From Coq Require Import ZArith List Bool.
From Verif Require Import Model.Base Model.F32 Model.Sample.
From Verif Require Import Model.BitStream Model.NibbleList Model.BitVec Model.Frame Model.Adhoc.
Import ListNotations.
Open Scope Z_scope.

(** Little-endian bytes of an unsigned integer of [n] bytes. *)
Fixpoint le_bytes (n : nat) (x : Z) : list Z :=
  match n with
  | O => []
  | S n => x mod 256 :: le_bytes n (x / 256)
  end.
Fixpoint of_le_bytes (l : list Z) : Z :=
  match l with
  | [] => 0
  | b :: t => b + 256 * of_le_bytes t
  end.

Definition put_u8 := le_bytes 1.
Definition put_u16 := le_bytes 2.
Definition put_u32 := le_bytes 4.
Definition put_u64 := le_bytes 8.
Definition put_u128 := le_bytes 16.
Definition put_i16 (x : Z) : list Z := le_bytes 2 (uwrap 16 x).
Definition put_vec {A} (put : A -> list Z) (l : list A) : list Z :=
  put_u64 (zlen l) ++ flat_map put l.

(** serde derive on NibbleList (nibble_list.rs:3-7), BitVec (bitvec.rs:5-9),
    FrameHeaders (frame.rs:18-27), BitStream (bitstream.rs:52-57), StreamInfo
    (codec.rs:29-38), AudioStream (audio_stream.rs:5-9). *)
Definition put_nibble_list (n : nibble_list) : list Z :=
  put_vec put_u8 (nl_data n) ++ put_u32 (nl_count n).
Definition put_bitvec (v : bitvec) : list Z :=
  put_vec put_u64 (bv_binary v) ++ put_u128 (bv_cursor v).
Definition put_history (h : Z * Z * Z) : list Z :=
  let '(a, b, c) := h in put_i16 a ++ put_i16 b ++ put_i16 c.
Definition put_headers (f : frame_headers) : list Z :=
  put_nibble_list (fhs_exps f) ++ put_bitvec (fhs_inits f)
  ++ put_vec put_u16 (fhs_sizes f) ++ put_vec put_u64 (fhs_cursors f)
  ++ put_vec put_history (fhs_hists f) ++ put_u32 (fhs_cursor f).
Definition put_info (i : option stream_info) : list Z :=
  match i with
  | None => put_u8 0
  | Some i => put_u8 1 ++ put_u32 (si_rate i) ++ put_u32 (si_channels i)
  end.
Definition put_bitstream (s : bitstream) : list Z :=
  put_vec put_u128 (bs_binary s) ++ put_u128 (bs_cursor s) ++ put_u128 (bs_capacity s).

(** adhoc.rs:163-181.  [save_to] into a resource that accepts every byte. *)
Definition ad_save (c : adhoc) : list Z :=
  put_u32 (ad_level c) ++ put_headers (ad_headers c)
  ++ put_info (as_info (ad_stream c)) ++ put_bitstream (as_stream (ad_stream c)).

(** Readers: [None] is a bincode error. *)
Definition parser (A : Type) : Type := list Z -> option (A * list Z).
Definition pbind {A B} (m : parser A) (k : A -> parser B) : parser B :=
  fun l => match m l with Some (a, r) => k a r | None => None end.
Definition pret {A} (a : A) : parser A := fun l => Some (a, l).
Definition pmap {A B} (f : A -> B) (m : parser A) : parser B := pbind m (fun a => pret (f a)).

Definition get_uint (n : nat) : parser Z :=
  fun l => if (n <=? length l)%nat then Some (of_le_bytes (firstn n l), skipn n l) else None.
Definition get_u8 := get_uint 1.
Definition get_u16 := get_uint 2.
Definition get_u32 := get_uint 4.
Definition get_u64 := get_uint 8.
Definition get_u128 := get_uint 16.
Definition get_i16 : parser Z := pmap (swrap 16) (get_uint 2).

Fixpoint get_n {A} (get : parser A) (n : nat) : parser (list A) :=
  match n with
  | O => pret []
  | S n => pbind get (fun a => pbind (get_n get n) (fun r => pret (a :: r)))
  end.
Definition get_vec {A} (get : parser A) : parser (list A) :=
  pbind get_u64 (fun len l =>
    if len <=? zlen l then get_n get (Z.to_nat len) l else None).

Definition get_nibble_list : parser nibble_list :=
  pbind (get_vec get_u8) (fun d => pbind get_u32 (fun c => pret (mkNL d c))).
Definition get_bitvec : parser bitvec :=
  pbind (get_vec get_u64) (fun b => pbind get_u128 (fun c => pret (mkBV b c))).
Definition get_history : parser (Z * Z * Z) :=
  pbind get_i16 (fun a => pbind get_i16 (fun b => pbind get_i16 (fun c => pret (a, b, c)))).
Definition get_headers : parser frame_headers :=
  pbind get_nibble_list (fun e =>
  pbind get_bitvec (fun i =>
  pbind (get_vec get_u16) (fun s =>
  pbind (get_vec get_u64) (fun c =>
  pbind (get_vec get_history) (fun h =>
  pbind get_u32 (fun cur => pret (mkFHS e i s c h cur))))))).
Definition get_info : parser (option stream_info) :=
  pbind get_u8 (fun tag =>
    if tag =? 0 then pret None
    else if tag =? 1 then
      pbind get_u32 (fun r => pbind get_u32 (fun c => pret (Some (mkInfo r c))))
    else fun _ => None).
Definition get_bitstream : parser bitstream :=
  pbind (get_vec get_u128) (fun b =>
  pbind get_u128 (fun c => pbind get_u128 (fun k => pret (mkBS b c k)))).
Definition get_codec : parser (Z * frame_headers * audio_stream) :=
  pbind get_u32 (fun lvl =>
  pbind get_headers (fun h =>
  pbind get_info (fun i =>
  pbind get_bitstream (fun s => pret (lvl, h, mkAS i s))))).

(** adhoc.rs:183-214.  [load]; [1 << level] is an i32 shift. *)
Definition ad_load (p : profile) (bytes : list Z) : outcome (option adhoc) :=
  match get_codec bytes with
  | None => Ok None
  | Some (lvl, h, s, _) =>
      sc <- sshl p 32 1 lvl ;;
      let scale := f32_of_Z sc in
      match as_info s with
      | None => Ok None
      | Some info =>
          Ok (Some (ad_init
            (mkAdhoc h (repeat fc_new (Z.to_nat (si_channels info))) s lvl scale
                     (fdiv f1 scale) 314)))
      end
  end.
