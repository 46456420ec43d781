(** * The code on a target with a given pointer width and a finite memory

    README.md:3 and :9 name wasm32, where [usize] has 32 bits; the other model files fix 64.
    Here every function that computes with a [usize], or that makes a vector longer, is
    modelled again for a [usize] of [w] bits and an allocator [alloc]: [alloc n] tells
    whether a vector can have [n] bytes of contents.  (Vectors ask for more than they need;
    which lengths are refused is left open.)  A refusal ends the program: [OutOfMemory].
    Functions without a [usize] are those of the other files.  The scratch vectors of
    serde and of the tool, and the strings, are not counted. *)
From Coq Require Import ZArith List Bool.
From Verif Require Import Model.Base Model.F32 Model.Noise Model.Sample.
From Verif Require Import Model.BitStream Model.NibbleList Model.BitVec Model.CircularStack Model.Frame.
From Verif Require Import Model.Adhoc Model.Bincode Model.Wav.
Import ListNotations.
Open Scope Z_scope.

Section Target.
Variable w : Z.
Variable alloc : Z -> bool.

(** [Vec::push] on a vector of elements of [size] bytes. *)
Definition t_push {A} (size : Z) (l : list A) (a : A) : outcome (list A) :=
  if alloc (size * (zlen l + 1)) then Ok (l ++ [a]) else Panic OutOfMemory.
(** [Vec::resize] and other ways of getting a vector of [n] bytes at once. *)
Definition t_reserve (n : Z) : outcome unit := if alloc n then Ok tt else Panic OutOfMemory.

(** ** src/collections/bitstream.rs *)

(** bitstream.rs:83-102.  [len], [capacity], [capacity_upperbound]: all [usize]. *)
Definition t_bs_len (s : bitstream) : Z := uwrap w (bs_cursor s).
Definition t_bs_capacity_bits (s : bitstream) : Z := uwrap w (bs_capacity s).
Definition t_bs_capacity_upperbound (p : profile) (s : bitstream) : outcome Z :=
  uchk p w (zlen (bs_binary s) * 128).

(** bitstream.rs:356-358.  [chunk_index]: the cast drops the upper bits. *)
Definition t_chunk_index (s : bitstream) : Z := uwrap w (bs_cursor s / 128).

(** bitstream.rs:235-239.  [allocate_if_needed]. *)
Definition t_allocate (s : bitstream) (chunk_idx : Z) : outcome bitstream :=
  if zlen (bs_binary s) <=? chunk_idx
  then b <- t_push 16 (bs_binary s) 0 ;; Ok (set_binary s b)
  else Ok s.

(** bitstream.rs:112-139.  [write_bits]. *)
Definition t_write_bits (p : profile) (s : bitstream) (val num_bits : Z) : outcome bitstream :=
  let cur := t_chunk_index s in
  nxt <- uchk p w (cur + 1) ;;
  let bit_idx := chunk_bit_index s in
  s <- t_allocate s cur ;;
  s <- t_allocate s nxt ;;
  c0 <- index (bs_binary s) cur ;;
  let c1 := Z.land c0 (Z.shiftl 1 bit_idx - 1) in
  let c2 := Z.lor c1 (uwrap 128 (Z.shiftl val bit_idx)) in
  b <- store (bs_binary s) cur c2 ;;
  let s := set_binary s b in
  let remaining := CHUNK_SIZE_IN_BITS - bit_idx in
  s <- (if remaining <? num_bits then
          n0 <- index (bs_binary s) nxt ;;
          one <- ushl p 128 1 (num_bits - remaining) ;;
          mask <- uchk p 128 (one - 1) ;;
          let n1 := Z.land n0 mask in
          hi <- shr p 128 val remaining ;;
          b <- store (bs_binary s) nxt (Z.lor n1 hi) ;;
          Ok (set_binary s b)
        else Ok s) ;;
  offset_bit_cursor p s num_bits.

(** bitstream.rs:141-169.  [peek_bits]. *)
Definition t_peek_bits (p : profile) (s : bitstream) (num_bits : Z)
  : outcome (bitstream * Z) :=
  let mask := if uwrap 32 num_bits <? 128 then Z.shiftl 1 (uwrap 32 num_bits) - 1
              else 2 ^ 128 - 1 in
  let cur := t_chunk_index s in
  nxt <- uchk p w (cur + 1) ;;
  let bit_idx := chunk_bit_index s in
  s <- t_allocate s cur ;;
  s <- t_allocate s nxt ;;
  if zlen (bs_binary s) <=? cur then Ok (s, 0)
  else
    c <- index (bs_binary s) cur ;;
    let bits := Z.shiftr c bit_idx in
    let remaining := 128 - bit_idx in
    bits <- (if remaining <? num_bits then
               n <- index (bs_binary s) nxt ;;
               hi <- ushl p 128 n remaining ;;
               Ok (Z.lor bits hi)
             else Ok bits) ;;
    Ok (s, Z.land bits mask).

(** bitstream.rs:175-183.  [write_bit]. *)
Definition t_write_bit (p : profile) (s : bitstream) (val : Z) : outcome bitstream :=
  let bit := Z.land val 1 in
  let idx := t_chunk_index s in
  let bit_idx := chunk_bit_index s in
  s <- t_allocate s idx ;;
  c0 <- index (bs_binary s) idx ;;
  let c1 := Z.land c0 (Z.shiftl 1 bit_idx - 1) in
  let c2 := Z.lor c1 (uwrap 128 (Z.shiftl bit bit_idx)) in
  b <- store (bs_binary s) idx c2 ;;
  offset_bit_cursor p (set_binary s b) 1.

(** bitstream.rs:189-198.  [read_bit]. *)
Definition t_read_bit (p : profile) (s : bitstream) : outcome (bitstream * Z) :=
  let idx := t_chunk_index s in
  let bit_idx := chunk_bit_index s in
  if zlen (bs_binary s) <=? idx then Ok (s, 0)
  else
    s' <- offset_bit_cursor p s 1 ;;
    c <- index (bs_binary s') idx ;;
    Ok (s', Z.land (Z.shiftr c bit_idx) 1).

(** bitstream.rs:202-206, 208-213, 224-233.  [read_bits], [read::<T>]. *)
Definition t_read_bits (p : profile) (s : bitstream) (n : Z) : outcome (bitstream * Z) :=
  '(s, v) <- t_peek_bits p s n ;;
  s <- offset_bit_cursor p s n ;;
  Ok (s, v).

(** bitstream.rs:302-310.  The unary loop of [write_compressed]. *)
Fixpoint t_write_unary (p : profile) (fuel : nat) (s : bitstream) (quotient : Z)
  : outcome bitstream :=
  match fuel with
  | O => OutOfFuel
  | S fuel =>
      if 0 <? quotient then
        if 128 <? quotient then
          s <- t_write_bits p s (2 ^ 128 - 1) 128 ;;
          t_write_unary p fuel s (quotient - 128)
        else t_write_bits p s (2 ^ 128 - 1) quotient
      else Ok s
  end.

(** bitstream.rs:283-318.  [write_compressed]. *)
Definition t_write_compressed (p : profile) (s : bitstream) (exponent entropy : Z)
  : outcome bitstream :=
  let sign_bit := if entropy <? 0 then 1 else 0 in
  mag <- schk p 16 (Z.abs entropy) ;;
  quotient <- shr p 16 mag exponent ;;
  mag' <- schk p 16 (Z.abs entropy) ;;
  one <- sshl p 16 1 exponent ;;
  mask <- schk p 16 (one - 1) ;;
  let remainder := Z.land mag' mask in
  let remainder_size := uwrap w exponent in
  s <- t_write_bit p s sign_bit ;;
  s <- t_write_unary p 257 s quotient ;;
  s <- t_write_bit p s 0 ;;
  t_write_bits p s (uwrap 32 remainder) remainder_size.

(** bitstream.rs:332-338.  The loop that skips full chunks of ones. *)
Fixpoint t_skip_ones (p : profile) (fuel : nat) (s : bitstream) (quotient : Z)
  : outcome (bitstream * Z * Z) :=
  match fuel with
  | O => OutOfFuel
  | S fuel =>
      '(s, chunk) <- t_peek_bits p s 128 ;;
      if chunk =? 2 ^ 128 - 1 then
        s <- offset_bit_cursor p s 128 ;;
        q <- schk p 16 (quotient + 128) ;;
        t_skip_ones p fuel s q
      else Ok (s, quotient, chunk)
  end.

(** bitstream.rs:320-354.  [read_compressed]. *)
Definition t_read_compressed (p : profile) (s : bitstream) (exponent : Z)
  : outcome (bitstream * Z) :=
  '(s, sign_bit) <- t_read_bit p s ;;
  let remainder_size := uwrap 32 exponent in
  divisor <- sshl p 16 1 exponent ;;
  '(s, quotient, chunk) <- t_skip_ones p (S (S (length (bs_binary s)))) s 0 ;;
  let zero_bit_pos := trailing_ones 128 chunk in
  s <- offset_bit_cursor p s (zero_bit_pos + 1) ;;
  quotient <- schk p 16 (quotient + zero_bit_pos) ;;
  '(s, r) <- t_read_bits p s remainder_size ;;
  let remainder := swrap 16 r in
  prod <- schk p 16 (divisor * quotient) ;;
  unsigned_val <- schk p 16 (prod + remainder) ;;
  neg_sign <- schk p 16 (- sign_bit) ;;
  a <- schk p 16 (unsigned_val * neg_sign) ;;
  pos <- schk p 16 (1 - sign_bit) ;;
  b <- schk p 16 (unsigned_val * pos) ;;
  v <- schk p 16 (a + b) ;;
  Ok (s, v).

(** ** src/collections/bitvec.rs, nibble_list.rs *)

(** bitvec.rs:98-100.  [chunk_index]. *)
Definition t_bv_chunk_index (i : Z) : Z := uwrap w (i / 64).
(** bitvec.rs:32-34.  [capacity]. *)
Definition t_bv_capacity (p : profile) (v : bitvec) : outcome Z := uchk p w (zlen (bv_binary v) * 64).

(** bitvec.rs:40-51.  [push]. *)
Definition t_bv_push (p : profile) (v : bitvec) (bit : Z) : outcome bitvec :=
  let bit := Z.land bit 1 in
  let ci := t_bv_chunk_index (bv_cursor v) in
  let bi := bv_chunk_bit_index (bv_cursor v) in
  bin <- (if zlen (bv_binary v) <=? ci then t_push 8 (bv_binary v) 0 else Ok (bv_binary v)) ;;
  c <- index bin ci ;;
  bin <- store bin ci (Z.lor (clear_bit64 c bi) (Z.shiftl bit bi)) ;;
  bv_offset_cursor p (mkBV bin (bv_cursor v)) 1.

(** bitvec.rs:57-67.  [get]. *)
Definition t_bv_get (v : bitvec) (idx : Z) : Z :=
  let ci := t_bv_chunk_index idx in
  let bi := bv_chunk_bit_index idx in
  if zlen (bv_binary v) <=? ci then 0
  else Z.land (Z.shiftr (nth (Z.to_nat ci) (bv_binary v) 0) bi) 1.

(** bitvec.rs:71-91.  [set]. *)
Definition t_bv_set (v : bitvec) (idx bit : Z) : bitvec :=
  let ci := t_bv_chunk_index idx in
  let bi := bv_chunk_bit_index idx in
  if zlen (bv_binary v) <=? ci then v
  else
    let chunk := nth (Z.to_nat ci) (bv_binary v) 0 in
    let chunk := clear_bit64 chunk bi in
    let chunk := Z.lor chunk (Z.shiftl (Z.land bit 1) bi) in
    mkBV (replace_nth (Z.to_nat ci) (bv_binary v) chunk) (bv_cursor v).

(** nibble_list.rs:32-40.  [push]; [nibble_count as usize] is exact for a u32. *)
Definition t_nl_push (p : profile) (n : nibble_list) (val : Z) : outcome nibble_list :=
  let block := nl_count n / 2 in
  let nib := nl_count n mod 2 in
  data <- (if zlen (nl_data n) <=? block then t_push 1 (nl_data n) 0 else Ok (nl_data n)) ;;
  b <- index data block ;;
  data <- store data block (Z.lor b (uwrap 8 (Z.shiftl val (4 * nib)))) ;;
  c <- uchk p 32 (nl_count n + 1) ;;
  Ok (mkNL data c).

(** ** src/codec/adhoc/frame.rs *)

(** frame.rs:86-113.  [push]. *)
Definition t_fhs_push (p : profile) (f : frame_headers) (h : frame_header)
  : outcome frame_headers :=
  let hc := fhs_cursor f in
  let is_init := if fh_is_init h then 1 else 0 in
  let cur64 := uwrap 64 (fh_bit_cursor h) in
  f' <- (if fhs_len f <=? hc then
           e <- t_nl_push p (fhs_exps f) (fh_exponent h) ;;
           b <- t_bv_push p (fhs_inits f) is_init ;;
           sz <- t_push 2 (fhs_sizes f) (fh_size h) ;;
           cu <- t_push 8 (fhs_cursors f) cur64 ;;
           hi <- t_push 6 (fhs_hists f) (fh_history h) ;;
           Ok (mkFHS e b sz cu hi hc)
         else
           let e := nl_set (fhs_exps f) hc (fh_exponent h) in
           let b := t_bv_set (fhs_inits f) hc is_init in
           sz <- store (fhs_sizes f) hc (fh_size h) ;;
           cu <- store (fhs_cursors f) hc cur64 ;;
           hi <- store (fhs_hists f) hc (fh_history h) ;;
           Ok (mkFHS e b sz cu hi hc)) ;;
  hc' <- uchk p 32 (hc + 1) ;;
  Ok (fhs_set_cursor f' hc').

(** frame.rs:115-130.  [get]. *)
Definition t_fhs_get (f : frame_headers) (i : Z) : outcome (option frame_header) :=
  if i <? fhs_len f then
    sz <- index (fhs_sizes f) i ;;
    cu <- index (fhs_cursors f) i ;;
    hi <- index (fhs_hists f) i ;;
    Ok (Some (mkFH (nl_get (fhs_exps f) i) sz cu (t_bv_get (fhs_inits f) i =? 1) hi))
  else Ok None.

(** frame.rs:145-161.  [Iterator::next]. *)
Definition t_fhs_next (p : profile) (f : frame_headers)
  : outcome (frame_headers * option frame_header) :=
  let hc := fhs_cursor f in
  if hc <? fhs_len f then
    sz <- index (fhs_sizes f) hc ;;
    cu <- index (fhs_cursors f) hc ;;
    hi <- index (fhs_hists f) hc ;;
    let h := mkFH (nl_get (fhs_exps f) hc) sz cu (t_bv_get (fhs_inits f) hc =? 1) hi in
    hc' <- uchk p 32 (hc + 1) ;;
    Ok (fhs_set_cursor f hc', Some h)
  else Ok (f, None).

(** frame.rs:232-250, 269-287. *)
Fixpoint t_encode_samples (p : profile) (s : bitstream) (h : cstack Z) (e : Z)
  (samples : list f32) : outcome (bitstream * cstack Z) :=
  match samples with
  | [] => Ok (s, h)
  | sample :: rest =>
      let current := truncate_sample sample in
      let predicted := predict_next h in
      s <- t_write_compressed p s e (residual current predicted) ;;
      t_encode_samples p s (cs_push h current) e rest
  end.

(** frame.rs:210-215. *)
Fixpoint t_encode_raw (p : profile) (s : bitstream) (h : cstack Z) (pcm : list f32)
  (ks : list Z) : outcome (bitstream * cstack Z) :=
  match ks with
  | [] => Ok (s, h)
  | k :: ks =>
      samp <- index pcm k ;;
      let truncated := truncate_sample samp in
      s <- t_write_bits p s (uwrap 16 truncated) 16 ;;
      t_encode_raw p s (cs_push h truncated) pcm ks
  end.

(** frame.rs:193-291.  [encode_frame]. *)
Definition t_encode_frame (p : profile) (c : frame_codec) (s : bitstream)
  (hs : frame_headers) (pcm : list f32)
  : outcome (frame_codec * bitstream * frame_headers) :=
  match fc_state c with
  | CInit =>
      let cursor := bit_cursor s in
      '(s, h) <- t_encode_raw p s (fc_history c) pcm [0; 1; 2] ;;
      rest <- slice_from pcm 3 ;;
      e <- compute_optimal_divisor_exponent p h rest ;;
      hs <- t_fhs_push p hs (mkFH (uwrap 8 e) (uwrap 16 (zlen pcm)) cursor true (last3 h)) ;;
      '(s, h) <- t_encode_samples p s h e rest ;;
      Ok (mkFC CEncoding h (fc_buffer c), s, hs)
  | CEncoding =>
      let h := fc_history c in
      e <- compute_optimal_divisor_exponent p h pcm ;;
      hs <- t_fhs_push p hs (mkFH (uwrap 8 e) (uwrap 16 (zlen pcm)) (bit_cursor s) false (last3 h)) ;;
      '(s, h) <- t_encode_samples p s h e pcm ;;
      Ok (mkFC CEncoding h (fc_buffer c), s, hs)
  | CDecoding => Panic InvalidState
  end.

(** frame.rs:319-338, 346-365. *)
Fixpoint t_decode_samples (p : profile) (s : bitstream) (h : cstack Z) (buf : list f32)
  (e : Z) (count : nat) : outcome (bitstream * cstack Z * list f32) :=
  match count with
  | O => Ok (s, h, buf)
  | S count =>
      '(s, entropy) <- t_read_compressed p s e ;;
      let predicted := predict_next h in
      let current := zclamp (entropy + predicted) (-32768) 32767 in
      let decoded := fclamp (normalize_sample current) fm1 f1 in
      buf <- t_push 4 buf decoded ;;
      t_decode_samples p s (cs_push h current) buf e count
  end.

(** frame.rs:308-311. *)
Fixpoint t_decode_raw (p : profile) (s : bitstream) (h : cstack Z) (n : nat)
  : outcome (bitstream * cstack Z) :=
  match n with
  | O => Ok (s, h)
  | S n =>
      '(s, v) <- t_read_bits p s 16 ;;
      t_decode_raw p s (cs_push h (swrap 16 v)) n
  end.

(** frame.rs:294-371.  [decode_frame]. *)
Definition t_decode_frame (p : profile) (c : frame_codec) (s : bitstream) (hs : frame_headers)
  : outcome (frame_codec * bitstream * frame_headers) :=
  '(hs, oh) <- t_fhs_next p hs ;;
  match oh with
  | None => Ok (c, s, hs)
  | Some hd =>
      match fc_state c with
      | CInit =>
          '(s, h) <- t_decode_raw p s (fc_history c) 3 ;;
          _ <- t_reserve (4 * (zlen (fc_buffer c) + 3)) ;;
          let buf := fc_buffer c ++ [normalize_sample (cs_prev 0 h 3);
                                     normalize_sample (cs_prev 0 h 2);
                                     normalize_sample (cs_prev 0 h 1)] in
          '(s, h, buf) <- t_decode_samples p s h buf (fh_exponent hd) (Z.to_nat (fh_size hd - 3)) ;;
          Ok (mkFC CDecoding h buf, s, hs)
      | CDecoding =>
          '(s, h, buf) <- t_decode_samples p s (fc_history c) (fc_buffer c) (fh_exponent hd)
                            (Z.to_nat (fh_size hd)) ;;
          Ok (mkFC CDecoding h buf, s, hs)
      | CEncoding => Panic InvalidState
      end
  end.

(** ** src/codec/adhoc.rs *)

(** adhoc.rs:73-88.  [with_info], [set_info]: a channel's state has more than 24 bytes
    on every target. *)
Definition t_ad_set_info (c : adhoc) (i : stream_info) : outcome adhoc :=
  _ <- t_reserve (24 * si_channels i) ;;
  Ok (ad_set_info c i).

(** frame.rs:43-84, adhoc.rs:99-123.  [filesize_upperbound]: the capacities are [usize]
    products (nibble_list.rs:26-28, bitvec.rs:32-34, bitstream.rs:97-102) before they become
    u64. *)
Definition t_ad_filesize_upperbound (p : profile) (nibble_capacity : Z) (c : adhoc) : outcome Z :=
  chunks <- t_bs_capacity_upperbound p (as_stream (ad_stream c)) ;;
  nibbles <- uchk p w (nibble_capacity * 8) ;;
  inits <- t_bv_capacity p (fhs_inits (ad_headers c)) ;;
  let len := fhs_len (ad_headers c) in
  let vector_header_size := 8 in
  let headers := (nibbles + vector_header_size) + (inits + vector_header_size)
                 + (len * 16 + vector_header_size) + (len * 64 + vector_header_size)
                 + (len * 48 + vector_header_size) + 32 + 32 + 128 in
  Ok ((8 * 8 + (chunks + 128 * 2)) + 32 + headers).

(** adhoc.rs:149-160.  [calculate_sample_count_per_channel]: the sum is a u64. *)
Definition t_ad_sample_count (p : profile) (c : adhoc) : outcome Z :=
  info <- ad_info c ;;
  total <- foldM (fun acc i =>
                    h <- t_fhs_get (ad_headers c) i ;;
                    match h with
                    | Some h => uchk p 64 (acc + fh_size h)
                    | None => Ok acc
                    end) (range (fhs_len (ad_headers c))) 0 ;;
  udiv total (si_channels info).

(** adhoc.rs:236-239. *)
Definition t_deinterleave (p : profile) (pcm : list f32) (num_channels channel num_chunks : Z)
  : outcome (list f32) :=
  mapM (fun k => a <- uchk p w (k * num_channels) ;; i <- uchk p w (a + channel) ;; index pcm i)
       (range num_chunks).

(** adhoc.rs:234-253. *)
Definition t_encode_channel (p : profile) (pcm : list f32) (num_channels num_chunks : Z)
  (c : adhoc) (channel : Z) : outcome adhoc :=
  samples <- t_deinterleave p pcm num_channels channel num_chunks ;;
  '(seq, samples) <- dither p (ad_inv_scale c) (ad_seq c) samples ;;
  fc <- index (ad_channels c) channel ;;
  '(fc, s, hs) <- t_encode_frame p fc (as_stream (ad_stream c)) (ad_headers c) samples ;;
  chs <- store (ad_channels c) channel fc ;;
  Ok (mkAdhoc hs chs (mkAS (as_info (ad_stream c)) s)
              (ad_level c) (ad_scale c) (ad_inv_scale c) seq).

(** adhoc.rs:216-254, 321-325.  [encode]. *)
Definition t_ad_encode (p : profile) (c : adhoc) (pcm : list f32) : outcome (adhoc * option Z) :=
  info <- ad_info c ;;
  let num_channels := uwrap w (si_channels info) in
  num_chunks <- udiv (zlen pcm) num_channels ;;
  _ <- t_reserve (4 * num_chunks) ;;
  c <- foldM (t_encode_channel p pcm num_channels num_chunks) (range num_channels) c ;;
  Ok (c, Some (zlen pcm)).

(** adhoc.rs:273-275. *)
Definition t_decode_channel (p : profile) (d : dstate) (channel : Z) : outcome dstate :=
  let '(chs, s, hs) := d in
  fc <- index chs channel ;;
  '(fc, s, hs) <- t_decode_frame p fc s hs ;;
  chs <- store chs channel fc ;;
  Ok (chs, s, hs).

(** adhoc.rs:268-279. *)
Fixpoint t_buffer_audio (p : profile) (num_channels : Z) (fuel : nat) (d : dstate)
  : outcome (dstate * nat) :=
  match fuel with
  | O => Ok (d, O)
  | S fuel =>
      let '(chs, _, _) := d in
      if buffers_empty chs then
        d <- foldM (t_decode_channel p) (range num_channels) d ;;
        '(d, n) <- t_buffer_audio p num_channels fuel d ;;
        Ok (d, S n)
      else Ok (d, O)
  end.

(** adhoc.rs:285-300. *)
Fixpoint t_decode_loop (p : profile) (num_channels : Z) (fuel : nat) (room : Z) (d : dstate)
  : outcome (dstate * list f32) :=
  match fuel with
  | O => OutOfFuel
  | S fuel =>
      if 0 <? room then
        '(d, attempts) <- t_buffer_audio p num_channels MAX_DECODE_ATTEMPTS d ;;
        if (MAX_DECODE_ATTEMPTS <=? attempts)%nat then Ok (d, [])
        else
          let '(chs, s, hs) := d in
          '(chs, out) <- pop_block chs num_channels 0 (Z.to_nat num_channels) room ;;
          '(d, outs) <- t_decode_loop p num_channels fuel (room - zlen out) (chs, s, hs) ;;
          Ok (d, out ++ outs)
      else Ok (d, [])
  end.

(** adhoc.rs:256-308, 327-330.  [decode]. *)
Definition t_ad_decode (p : profile) (c : adhoc) (buf : list f32)
  : outcome (adhoc * list f32 * option Z) :=
  info <- ad_info c ;;
  let num_channels := uwrap w (si_channels info) in
  blocks <- udiv (zlen buf) num_channels ;;
  let legal := blocks * num_channels in
  '(d, out) <- t_decode_loop p num_channels (S (length buf)) legal
                 (ad_channels c, as_stream (ad_stream c), ad_headers c) ;;
  let '(chs, s, hs) := d in
  let buf := map (fun x => fmul x (ad_scale c)) (out ++ skipn (length out) buf) in
  let c := mkAdhoc hs chs (mkAS (as_info (ad_stream c)) s)
                   (ad_level c) (ad_scale c) (ad_inv_scale c) (ad_seq c) in
  Ok (c, buf, if 0 <? zlen out then Some (zlen out) else None).

(** adhoc.rs:363-376.  Indices are [usize], sample counts u64. *)
Fixpoint t_seek_walk (p : profile) (hs : frame_headers) (channels offset_in_blocks : Z)
  (fuel : nat) (samples_skipped idx header_block_len : Z) : outcome (Z * Z) :=
  match fuel with
  | O => OutOfFuel
  | S fuel =>
      if (idx <? header_block_len) && (samples_skipped <? offset_in_blocks) then
        i <- uchk p w (idx * uwrap w channels) ;;
        oh <- t_fhs_get hs i ;;
        h <- expect oh ;;
        header_size <- uchk p 64 (fh_size h * channels) ;;
        sum <- uchk p 64 (samples_skipped + header_size) ;;
        if offset_in_blocks <=? sum then Ok (samples_skipped, idx)
        else
          idx' <- uchk p w (idx + 1) ;;
          t_seek_walk p hs channels offset_in_blocks fuel sum idx' header_block_len
      else Ok (samples_skipped, idx)
  end.

(** adhoc.rs:391-417. *)
Definition t_seek_channel (p : profile) (start : Z) (d : dstate) (offset : Z) : outcome dstate :=
  let '(chs, s, hs) := d in
  i <- uchk p w (start + uwrap w offset) ;;
  oh <- t_fhs_get hs i ;;
  hd <- expect oh ;;
  fc <- index chs (uwrap w offset) ;;
  let '(h3, h2, h1) := fh_history hd in
  let hist := cs_push (cs_push (cs_push (fc_history fc) h3) h2) h1 in
  let fc := mkFC (if fh_is_init hd then CInit else CDecoding) hist [] in
  '(fc, s, hs) <- t_decode_frame p fc s hs ;;
  chs <- store chs (uwrap w offset) fc ;;
  Ok (chs, s, hs).

(** adhoc.rs:332-433.  [seek]. *)
Definition t_ad_seek (p : profile) (c : adhoc) (dt : seek_from) : outcome adhoc :=
  info <- ad_info c ;;
  let channels := si_channels info in
  let freq_ms := fdiv (f32_of_Z (si_rate info)) f1000 in
  let c := ad_init c in
  match dt with
  | SStart dt =>
      if dt =? 0 then Ok c
      else
        let offset := f32_as_u64 (fmul freq_ms (f32_of_Z dt)) in
        offset_in_blocks <- uchk p 64 (offset * channels) ;;
        let hs := ad_headers c in
        block_len <- udiv (fhs_len hs) (uwrap w channels) ;;
        '(skipped, idx) <- t_seek_walk p hs channels offset_in_blocks
                             (S (Z.to_nat (fhs_len hs))) 0 0 block_len ;;
        start <- uchk p w (idx * uwrap w channels) ;;
        oh <- t_fhs_get hs start ;;
        hd <- expect oh ;;
        let s := set_bit_cursor (as_stream (ad_stream c)) (fh_bit_cursor hd) in
        let hs := fhs_set_cursor hs (uwrap 32 start) in
        '(chs, s, hs) <- foldM (t_seek_channel p start) (range channels) (ad_channels c, s, hs) ;;
        chs <- prune (Z.to_nat (offset_in_blocks - skipped)) channels skipped offset_in_blocks chs ;;
        Ok (mkAdhoc hs chs (mkAS (as_info (ad_stream c)) s)
                    (ad_level c) (ad_scale c) (ad_inv_scale c) (ad_seq c))
  | _ => Panic NotImplemented
  end.

(** ** adhoc.rs:183-214: [load]

    bincode reads a length as a u64 and reports an error when it is no [usize]. *)
Definition t_get_vec {A} (get : parser A) : parser (list A) :=
  pbind get_u64 (fun len l =>
    if (len <? 2 ^ w) && (len <=? zlen l) then get_n get (Z.to_nat len) l else None).
Definition t_get_nibble_list : parser nibble_list :=
  pbind (t_get_vec get_u8) (fun d => pbind get_u32 (fun c => pret (mkNL d c))).
Definition t_get_bitvec : parser bitvec :=
  pbind (t_get_vec get_u64) (fun b => pbind get_u128 (fun c => pret (mkBV b c))).
Definition t_get_headers : parser frame_headers :=
  pbind t_get_nibble_list (fun e =>
  pbind t_get_bitvec (fun i =>
  pbind (t_get_vec get_u16) (fun s =>
  pbind (t_get_vec get_u64) (fun c =>
  pbind (t_get_vec get_history) (fun h =>
  pbind get_u32 (fun cur => pret (mkFHS e i s c h cur))))))).
Definition t_get_bitstream : parser bitstream :=
  pbind (t_get_vec get_u128) (fun b =>
  pbind get_u128 (fun c => pbind get_u128 (fun k => pret (mkBS b c k)))).
Definition t_get_codec : parser (Z * frame_headers * audio_stream) :=
  pbind get_u32 (fun lvl =>
  pbind t_get_headers (fun h =>
  pbind get_info (fun i =>
  pbind t_get_bitstream (fun s => pret (lvl, h, mkAS i s))))).

(** The vectors a loaded codec consists of, in bytes (a file that turns out to be torn
    may already exhaust the memory on the way; here that is [None]). *)
Definition t_vectors (h : frame_headers) (s : bitstream) (channels : Z) : list Z :=
  [zlen (nl_data (fhs_exps h)); 8 * zlen (bv_binary (fhs_inits h)); 2 * zlen (fhs_sizes h);
   8 * zlen (fhs_cursors h); 6 * zlen (fhs_hists h); 16 * zlen (bs_binary s); 24 * channels].

Definition t_ad_load (p : profile) (bytes : list Z) : outcome (option adhoc) :=
  match t_get_codec bytes with
  | None => Ok None
  | Some (lvl, h, s, _) =>
      sc <- sshl p 32 1 lvl ;;
      let scale := f32_of_Z sc in
      match as_info s with
      | None => Ok None
      | Some info =>
          if forallb alloc (t_vectors h (as_stream s) (si_channels info)) then
            Ok (Some (ad_init
              (mkAdhoc h (repeat fc_new (Z.to_nat (si_channels info))) s lvl scale
                       (fdiv f1 scale) 314)))
          else Panic OutOfMemory
      end
  end.

(** ** src/codec/wav.rs *)

(** wav.rs:238-254.  [write_sample]: the cursor is a u64, cast to [usize]. *)
Definition t_wav_write_sample (p : profile) (v : wav) (s : Z) : outcome wav :=
  pcm <- (if uwrap w (wav_cursor v) <? wav_num_samples v then
            let i := uwrap w (Z.shiftl (uwrap w (wav_cursor v)) 1) in
            pcm <- store (wav_pcm v) i (lo_byte s) ;;
            i' <- uchk p w (i + 1) ;;
            store pcm i' (hi_byte s)
          else
            pcm <- t_push 1 (wav_pcm v) (lo_byte s) ;;
            t_push 1 pcm (hi_byte s)) ;;
  wav_offset_cursor p (mkWav (wav_info v) pcm (wav_cursor v)) 1.

(** wav.rs:267-275.  [encode]. *)
Definition t_wav_encode (p : profile) (v : wav) (samples : list f32) : outcome (wav * option Z) :=
  let ch := uwrap w (si_channels (wav_info v)) in
  blocks <- udiv (zlen samples) ch ;;
  let valid := blocks * ch in
  v <- foldM (fun v s => t_wav_write_sample p v (truncate_sample s))
             (firstn (Z.to_nat valid) samples) v ;;
  Ok (v, Some valid).

(** wav.rs:287-293. *)
Fixpoint t_wav_read (pcm : list Z) (count : nat) (cursor stream_length : Z)
  : outcome (Z * list f32) :=
  match count with
  | O => Ok (cursor, [])
  | S count =>
      if cursor <? stream_length then
        s <- pcm_at pcm (uwrap w cursor) ;;
        '(cursor, rest) <- t_wav_read pcm count (cursor + 1) stream_length ;;
        Ok (cursor, normalize_sample s :: rest)
      else Ok (cursor, [])
  end.

(** wav.rs:276-296.  [decode]. *)
Definition t_wav_decode (v : wav) (out : list f32) : outcome (wav * list f32 * option Z) :=
  let ch := uwrap w (si_channels (wav_info v)) in
  blocks <- udiv (zlen out) ch ;;
  let valid := blocks * ch in
  '(cursor, got) <- t_wav_read (wav_pcm v) (Z.to_nat valid) (wav_cursor v) (wav_num_samples v) ;;
  Ok (mkWav (wav_info v) (wav_pcm v) cursor, got ++ skipn (length got) out,
      if 0 <? zlen got then Some (zlen got) else None).

(** wav.rs:134-222.  [load]: what differs is the memory; the header's 256 bytes do not. *)
Definition t_wav_load (p : profile) (file : list Z) : outcome (option wav) :=
  o <- wav_load p file ;;
  match o with
  | None => Ok None
  | Some v => if alloc (zlen (wav_pcm v)) then Ok (Some v) else Panic OutOfMemory
  end.

End Target.
