(** * Model of the memory the [unsafe] blocks look at

    The three reinterpretations of memory in the crate: [RawWavHeader::as_bytes] and
    [as_bytes_mut] (wav.rs:70-81), [WavCodec::get_pcm] (wav.rs:228-230), and
    [LinkedList::iter_mut] (linked_list.rs:162-173).  [Wav.v] describes the first two by their
    effect on a little-endian host; here the effect is computed from the layout rules of the
    language, for either byte order. *)
From Coq Require Import ZArith List Bool.
From Verif Require Import Model.Base Model.F32 Model.Sample Model.Bincode Model.Adhoc Model.Wav Model.LinkedList.
Import ListNotations.
Open Scope Z_scope.

(** The byte order of the machine. *)
Inductive endian := Little | Big.

(** The types of the fields of [RawWavHeader] with a value: [[u8; 4]], [u32], [i32], [i16]. *)
Inductive cvalue := CBytes (b : list Z) | CU32 (x : Z) | CI32 (x : Z) | CI16 (x : Z).
Definition csize (v : cvalue) : Z := match v with CBytes b => zlen b | CU32 _ | CI32 _ => 4 | CI16 _ => 2 end.
Definition calign (v : cvalue) : Z := match v with CBytes _ => 1 | CU32 _ | CI32 _ => 4 | CI16 _ => 2 end.
(** An integer of [n] bytes in memory: two's complement, in the byte order of the machine. *)
Definition int_image (en : endian) (n : nat) (x : Z) : list Z :=
  let le := le_bytes n (uwrap (8 * Z.of_nat n) x) in
  match en with Little => le | Big => rev le end.
Definition cimage (en : endian) (v : cvalue) : list Z :=
  match v with
  | CBytes b => b
  | CU32 x | CI32 x => int_image en 4 x
  | CI16 x => int_image en 2 x
  end.

(** The layout rules of [repr(C)]: each field at the next multiple of its alignment, the whole
    aligned like the strictest field, and its size a multiple of that.  ([align(1)], wav.rs:10,
    can only raise the alignment, so it does nothing.)  Padding bytes hold nothing: [None]. *)
Definition round_up (n a : Z) : Z := (n + a - 1) / a * a.
Fixpoint c_offsets (at_ : Z) (fs : list cvalue) : list Z :=
  match fs with
  | [] => []
  | f :: fs => let o := round_up at_ (calign f) in o :: c_offsets (o + csize f) fs
  end.
Definition c_align (fs : list cvalue) : Z := fold_right (fun f a => Z.max (calign f) a) 1 fs.
Fixpoint c_end (at_ : Z) (fs : list cvalue) : Z :=
  match fs with [] => at_ | f :: fs => c_end (round_up at_ (calign f) + csize f) fs end.
Definition c_size (fs : list cvalue) : Z := round_up (c_end 0 fs) (c_align fs).
Definition padding (n : Z) : list (option Z) := repeat None (Z.to_nat n).
Fixpoint c_image_from (en : endian) (at_ : Z) (fs : list cvalue) : list (option Z) :=
  match fs with
  | [] => []
  | f :: fs => let o := round_up at_ (calign f) in
      padding (o - at_) ++ map Some (cimage en f) ++ c_image_from en (o + csize f) fs
  end.
Definition c_image (en : endian) (fs : list cvalue) : list (option Z) :=
  c_image_from en 0 fs ++ padding (c_size fs - c_end 0 fs).

(** wav.rs:11-25.  The fields of [RawWavHeader], in the order of their declaration. *)
Record raw_header := mkRaw {
  rh_riff : list Z; rh_file_size : Z; rh_wave : list Z; rh_fmt : list Z; rh_cksize : Z;
  rh_audio_format : Z; rh_num_channels : Z; rh_frequency : Z; rh_bytes_per_sec : Z;
  rh_block_align : Z; rh_bits_per_sample : Z; rh_data_header : list Z; rh_file_size_data : Z }.
Definition raw_fields (h : raw_header) : list cvalue :=
  [CBytes (rh_riff h); CU32 (rh_file_size h); CBytes (rh_wave h); CBytes (rh_fmt h); CU32 (rh_cksize h);
   CI16 (rh_audio_format h); CI16 (rh_num_channels h); CI32 (rh_frequency h); CI32 (rh_bytes_per_sec h);
   CI16 (rh_block_align h); CI16 (rh_bits_per_sample h); CBytes (rh_data_header h); CU32 (rh_file_size_data h)].
(** wav.rs:27-45.  [RawWavHeader::default]. *)
Definition raw_default : raw_header := mkRaw TAG_RIFF 0 TAG_WAVE TAG_FMT 0 0 0 0 0 0 0 TAG_DATA 0.

(** wav.rs:116-125.  The header [save_to] fills in; [mem::size_of::<RawWavHeader>()] is what
    the layout rules say. *)
Definition raw_header_of (p : profile) (w : wav) : outcome raw_header :=
  let d := raw_default in
  let len := uwrap 32 (zlen (wav_pcm w)) in
  size8 <- uchk p 32 (uwrap 32 (c_size (raw_fields d)) - 8) ;;
  file_size <- uchk p 32 (size8 + len) ;;
  let frequency := swrap 32 (si_rate (wav_info w)) in
  let channels := swrap 16 (si_channels (wav_info w)) in
  a <- schk p 32 (frequency * channels) ;;
  b <- schk p 32 (a * 16) ;;
  c <- schk p 16 (channels * 16) ;;
  Ok (mkRaw (rh_riff d) file_size (rh_wave d) (rh_fmt d) 16 1 channels frequency (Z.quot b 8)
        (Z.quot c 8) 16 (rh_data_header d) len).

(** wav.rs:70-75, 127-129.  [save_to] on a machine of either byte order, into a resource that
    takes whole slices. *)
Definition wav_save_on (en : endian) (p : profile) (w : wav) : outcome (list (option Z)) :=
  h <- raw_header_of p w ;; Ok (c_image en (raw_fields h) ++ map Some (wav_pcm w)).

(** An integer of [n] bytes read from memory. *)
Definition int_at (en : endian) (bytes : list Z) : Z :=
  of_le_bytes (match en with Little => bytes | Big => rev bytes end).
(** wav.rs:134-222.  [load] on a machine of either byte order: the header's fields are whatever
    the bytes copied over the struct mean there; the rest is as in [wav_load]. *)
Definition field_on (en : endian) (l : list Z) (o n : nat) : Z := int_at en (firstn n (skipn o l)).
Definition wav_load_on (en : endian) (p : profile) (file : list Z) : outcome (option wav) :=
  if zlen file <? 256 then Ok None
  else
    let header := firstn 256 file in
    match find_tag header 0 with
    | None => Ok None
    | Some data_start =>
        tail <- slice_from header (data_start + 4) ;;
        _ <- index tail 0 ;; _ <- index tail 1 ;; _ <- index tail 2 ;; _ <- index tail 3 ;;
        let bits := swrap 16 (field_on en header 34 2) in
        let fmt := swrap 16 (field_on en header 20 2) in
        if negb (bits =? 16) && negb (bits =? 8) then Ok None
        else if negb (fmt =? 1) then Ok None
        else
          let raw := skipn (Z.to_nat (data_start + 8)) file in
          pcm <- (if bits =? 8 then expand_pcm raw else Ok raw) ;;
          let info := mkInfo (uwrap 32 (swrap 32 (field_on en header 24 4)))
                             (uwrap 32 (swrap 16 (field_on en header 22 2))) in
          Ok (Some (mkWav info pcm 0))
    end.

(** wav.rs:228-230.  [get_pcm]: element [i] of the vector's bytes seen as [i16]s. *)
Definition view_at (en : endian) (pcm : list Z) (i : Z) : outcome Z :=
  lo <- index pcm (2 * i) ;; hi <- index pcm (2 * i + 1) ;; Ok (swrap 16 (int_at en [lo; hi])).

(** wav.rs:276-296.  [decode]'s loop over that view. *)
Fixpoint wav_read_on (en : endian) (pcm : list Z) (count : nat) (cursor stream_length : Z) : outcome (Z * list f32) :=
  match count with
  | O => Ok (cursor, [])
  | S count =>
      if cursor <? stream_length then
        s <- view_at en pcm cursor ;;
        '(cursor, rest) <- wav_read_on en pcm count (cursor + 1) stream_length ;;
        Ok (cursor, normalize_sample s :: rest)
      else Ok (cursor, [])
  end.
Definition wav_decode_on (en : endian) (w : wav) (out : list f32) : outcome (wav * list f32 * option Z) :=
  let ch := si_channels (wav_info w) in
  blocks <- udiv (zlen out) ch ;;
  '(cursor, got) <- wav_read_on en (wav_pcm w) (Z.to_nat (blocks * ch)) (wav_cursor w) (wav_num_samples w) ;;
  Ok (mkWav (wav_info w) (wav_pcm w) cursor, got ++ skipn (length got) out, if 0 <? zlen got then Some (zlen got) else None).

(** wav.rs:90, 98, 157-159, 195-197, 246-247.  Where the vector [pcm] lives: its address and
    capacity.  [Vec::new] allocates nothing: its address is the alignment of [u8], 1.  A vector
    that has grown holds a block of [cap] bytes at an address the allocator chose. *)
Record place := mkPlace { pl_addr : Z; pl_cap : Z }.
Definition place_new : place := mkPlace 1 0.
(** The vector at [from] comes to hold [len] bytes: it stays where it is if there is room, or
    moves to a block that is large enough, at an address [may] allows the allocator to choose. *)
Definition grows (may : Z -> Prop) (from : place) (len : Z) (to : place) : Prop :=
  len <= pl_cap to /\ (to = from \/ may (pl_addr to)).

(** What [slice::from_raw_parts::<i16>] requires of the address and the length in elements, the
    bytes [addr .. addr + cap) being the vector's: not null, a multiple of 2, and inside. *)
Definition view_allowed (pl : place) (elements : Z) : Prop :=
  pl_addr pl <> 0 /\ pl_addr pl mod 2 = 0 /\ 0 <= 2 * elements <= pl_cap pl.

(** linked_list.rs:162-173, 190-221.  [iter_mut]: each pointer the iterator yields is
    dereferenced without a bounds check and the caller is given the node's data to change; here
    the caller replaces [x] by [f x].  Reading or writing outside [memory], which in the code
    is undefined behaviour, is [Panic IndexOutOfBounds]. *)
Definition ll_iter_mut {T : Type} (f : T -> T) (l : llist T) : outcome (llist T) :=
  ptrs <- ll_walk l (Z.to_nat (ll_len l)) (ll_front l) ;;
  foldM (fun l i => n <- ll_at l i ;; x <- expect (nd_data n) ;;
                    ll_put l i (mkNode (Some (f x)) (nd_left n) (nd_right n))) ptrs l.
