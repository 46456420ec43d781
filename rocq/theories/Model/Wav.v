(** * Model of src/codec/wav.rs

    [RawWavHeader] is [repr(C)] with no padding (44 bytes) and is viewed as bytes on a
    little-endian host.  [get_pcm] reinterprets the byte vector as i16; the model reads
    byte pairs (alignment of the allocation is not modelled). *)
From Coq Require Import ZArith List Bool.
From Verif Require Import Model.Base Model.F32 Model.Sample Model.Bincode Model.Adhoc.
Import ListNotations.
Open Scope Z_scope.

(** wav.rs:86-92.  [WavCodec]. *)
Record wav := mkWav { wav_info : stream_info; wav_pcm : list Z; wav_cursor : Z }.

(** wav.rs:95-101.  [new]. *)
Definition wav_new (i : stream_info) : wav := mkWav i [] 0.

(** wav.rs:30-41.  The four-byte tags. *)
Definition TAG_RIFF : list Z := [82; 73; 70; 70].
Definition TAG_WAVE : list Z := [87; 65; 86; 69].
Definition TAG_FMT : list Z := [102; 109; 116; 32].
Definition TAG_DATA : list Z := [100; 97; 116; 97].

Definition put_i32 (x : Z) : list Z := le_bytes 4 (uwrap 32 x).

(** wav.rs:112-125, 70-75.  The 44 header bytes [save_to] writes. *)
Definition wav_header (p : profile) (w : wav) : outcome (list Z) :=
  let pcm_len := uwrap 32 (zlen (wav_pcm w)) in
  file_size <- uchk p 32 (44 - 8 + pcm_len) ;;
  let freq := swrap 32 (si_rate (wav_info w)) in
  let chans := swrap 16 (si_channels (wav_info w)) in
  a <- schk p 32 (freq * chans) ;;
  b <- schk p 32 (a * 16) ;;
  let bytes_per_sec := Z.quot b 8 in
  c <- schk p 16 (chans * 16) ;;
  let block_align := Z.quot c 8 in
  Ok (TAG_RIFF ++ put_u32 file_size ++ TAG_WAVE ++ TAG_FMT ++ put_u32 16
      ++ put_i16 1 ++ put_i16 chans ++ put_i32 freq ++ put_i32 bytes_per_sec
      ++ put_i16 block_align ++ put_i16 16 ++ TAG_DATA ++ put_u32 pcm_len).

(** wav.rs:127-130.  [save_to] into a resource whose first [write] call accepts
    [accepted] bytes (the count it returns is ignored) and whose [write_all] succeeds. *)
Definition wav_save_to (p : profile) (w : wav) (accepted : nat) : outcome (list Z) :=
  h <- wav_header p w ;;
  Ok (firstn accepted h ++ wav_pcm w).

(** A resource that takes whole slices, as [Vec<u8>] does. *)
Definition wav_save (p : profile) (w : wav) : outcome (list Z) := wav_save_to p w 44.

(** wav.rs:149-156.  Position of the first "data" among the windows of four. *)
Fixpoint list_eqb (a b : list Z) : bool :=
  match a, b with
  | [], [] => true
  | x :: a, y :: b => (x =? y) && list_eqb a b
  | _, _ => false
  end.
Fixpoint find_tag (l : list Z) (pos : Z) : option Z :=
  match l with
  | a :: ((b :: c :: d :: _) as t) =>
      if list_eqb [a; b; c; d] TAG_DATA then Some pos else find_tag t (pos + 1)
  | _ => None
  end.

(** wav.rs:203-208.  The conversion of one 8-bit sample. *)
Definition expand8 (b : Z) : Z :=
  let x := fclamp (fsub (fmul (fdiv (f32_of_Z b) (f32_of_Z 255)) f2) f1) fm1 f1 in
  f32_as_i16 (fmul x (f32_of_Z 32766)).

(** The low and the high byte of an i16: [(s >> 0) & 0xff], [(s >> 8) & 0xff]. *)
Definition lo_byte (s : Z) : Z := Z.land s 255.
Definition hi_byte (s : Z) : Z := Z.land (Z.shiftr s 8) 255.

(** wav.rs:198-210.  The in-place expansion, last sample first. *)
Definition expand_step (pcm : list Z) (k : Z) : outcome (list Z) :=
  b <- index pcm k ;;
  let s := expand8 b in
  pcm <- store pcm (2 * k) (lo_byte s) ;;
  store pcm (2 * k + 1) (hi_byte s).
Definition expand_pcm (pcm : list Z) : outcome (list Z) :=
  foldM expand_step (rev (range (zlen pcm))) (pcm ++ repeat 0 (length pcm)).

(** Little-endian field of [n] bytes at offset [o] of the header bytes. *)
Definition field (l : list Z) (o n : nat) : Z := of_le_bytes (firstn n (skipn o l)).

(** wav.rs:134-222.  [load]; errors are [None].  [file_size_data] is parsed but never
    used; reading it is what can panic. *)
Definition wav_load (p : profile) (file : list Z) : outcome (option wav) :=
  if zlen file <? 256 then Ok None
  else
    let header := firstn 256 file in
    match find_tag header 0 with
    | None => Ok None
    | Some data_start =>
        tail <- slice_from header (data_start + 4) ;;
        _ <- index tail 0 ;; _ <- index tail 1 ;; _ <- index tail 2 ;; _ <- index tail 3 ;;
        let bits := swrap 16 (field header 34 2) in
        let fmt := swrap 16 (field header 20 2) in
        if negb (bits =? 16) && negb (bits =? 8) then Ok None
        else if negb (fmt =? 1) then Ok None
        else
          let raw := skipn (Z.to_nat (data_start + 8)) file in
          pcm <- (if bits =? 8 then expand_pcm raw else Ok raw) ;;
          let info := mkInfo (uwrap 32 (swrap 32 (field header 24 4)))
                             (uwrap 32 (swrap 16 (field header 22 2))) in
          Ok (Some (mkWav info pcm 0))
    end.

(** wav.rs:224-230.  [num_samples]; one sample of [get_pcm]. *)
Definition wav_num_samples (w : wav) : Z := zlen (wav_pcm w) / 2.
Definition pcm_at (pcm : list Z) (i : Z) : outcome Z :=
  lo <- index pcm (2 * i) ;;
  hi <- index pcm (2 * i + 1) ;;
  Ok (swrap 16 (lo + 256 * hi)).

(** wav.rs:238-254.  [write_sample], [offset_cursor]. *)
Definition wav_offset_cursor (p : profile) (w : wav) (off : Z) : outcome wav :=
  c <- schk p 64 (swrap 64 (wav_cursor w) + off) ;;
  Ok (mkWav (wav_info w) (wav_pcm w) (Z.max c 0)).
Definition wav_write_sample (p : profile) (w : wav) (s : Z) : outcome wav :=
  pcm <- (if wav_cursor w <? wav_num_samples w then
            let i := Z.shiftl (wav_cursor w) 1 in
            pcm <- store (wav_pcm w) i (lo_byte s) ;;
            store pcm (i + 1) (hi_byte s)
          else Ok (wav_pcm w ++ [lo_byte s; hi_byte s])) ;;
  wav_offset_cursor p (mkWav (wav_info w) pcm (wav_cursor w)) 1.

(** wav.rs:261-265.  [filesize_upperbound], in bits. *)
Definition wav_filesize_upperbound (w : wav) : Z := 44 * 8 + zlen (wav_pcm w) * 8.

(** wav.rs:267-275.  [encode]. *)
Definition wav_encode (p : profile) (w : wav) (samples : list f32) : outcome (wav * option Z) :=
  let ch := si_channels (wav_info w) in
  blocks <- udiv (zlen samples) ch ;;
  let valid := blocks * ch in
  w <- foldM (fun w s => wav_write_sample p w (truncate_sample s))
             (firstn (Z.to_nat valid) samples) w ;;
  Ok (w, Some valid).

(** wav.rs:287-293.  The read loop. *)
Fixpoint wav_read (pcm : list Z) (count : nat) (cursor stream_length : Z)
  : outcome (Z * list f32) :=
  match count with
  | O => Ok (cursor, [])
  | S count =>
      if cursor <? stream_length then
        s <- pcm_at pcm cursor ;;
        '(cursor, rest) <- wav_read pcm count (cursor + 1) stream_length ;;
        Ok (cursor, normalize_sample s :: rest)
      else Ok (cursor, [])
  end.

(** wav.rs:276-296.  [decode]. *)
Definition wav_decode (w : wav) (out : list f32) : outcome (wav * list f32 * option Z) :=
  let ch := si_channels (wav_info w) in
  blocks <- udiv (zlen out) ch ;;
  let valid := blocks * ch in
  '(cursor, got) <- wav_read (wav_pcm w) (Z.to_nat valid) (wav_cursor w) (wav_num_samples w) ;;
  Ok (mkWav (wav_info w) (wav_pcm w) cursor, got ++ skipn (length got) out,
      if 0 <? zlen got then Some (zlen got) else None).

(** wav.rs:298-323.  [seek]; all i64 arithmetic, [i64::MIN / -1] is impossible because
    the divisor is a channel count. *)
Definition wav_seek (p : profile) (w : wav) (dt : seek_from) : outcome wav :=
  let rate_ms := fdiv (f32_of_Z (si_rate (wav_info w))) f1000 in
  let ch := si_channels (wav_info w) in
  let n := swrap 64 (wav_num_samples w) in
  let offset_of d := f32_as_i64 (fmul rate_ms (f32_of_Z d)) in
  let finish x :=
    hi <- schk p 64 (n - 1) ;;
    c <- clampP x 0 hi ;;
    Ok (mkWav (wav_info w) (wav_pcm w) (uwrap 64 c)) in
  match dt with
  | SCurrent d =>
      block <- (if ch =? 0 then Panic DivisionByZero
                else Ok (Z.quot (swrap 64 (wav_cursor w)) ch)) ;;
      block <- schk p 64 (block * ch) ;;
      m <- schk p 64 (offset_of d * ch) ;;
      x <- schk p 64 (block + m) ;;
      finish x
  | SStart d =>
      m <- schk p 64 (offset_of d * ch) ;;
      finish m
  | SEnd d =>
      block <- schk p 64 (n - n) ;;
      m <- schk p 64 (offset_of d * ch) ;;
      x <- schk p 64 (block + m) ;;
      finish x
  end.
