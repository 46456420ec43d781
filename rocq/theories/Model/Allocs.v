(** * What room the calls of the codecs ask their vectors for

    The functions of BitStream.v, NibbleList.v, BitVec.v, Frame.v, Adhoc.v and Wav.v that make a [Vec] or [VecDeque] longer, again,
    with a log: before a vector gets longer, the new number of entries is written down.  What the allocator makes of it is in
    Spec/Allocation.v.  Erasing the log gives the functions of the model: Proofs/AllocFacts.v. *)
From Coq Require Import ZArith List Bool.
From Verif Require Import Model.Base Model.F32 Model.Noise Model.Sample.
From Verif Require Import Model.BitStream Model.NibbleList Model.BitVec Model.CircularStack Model.Frame Model.Adhoc Model.Wav.
Import ListNotations.
Open Scope Z_scope.

(** The vectors of the codecs: bitstream.rs:54 ([binary]), nibble_list.rs:5 ([data]), bitvec.rs:7 ([binary]), frame.rs:23-25
    ([frame_size_list], [bit_cursor_list], [stack_history_list]), adhoc.rs:44 ([deinterleaved_channel]), frame.rs:169
    ([buffered_channel], one for each channel), wav.rs:89 ([pcm]). *)
Inductive table : Type := Chunks | Exponents | Flags | Sizes | Positions | Histories.
Inductive vector : Type := Table (t : table) | Scratch | Buffer (channel : Z) | Pcm.

(** The requests made, until the code returned or panicked, and the outcome. *)
Definition logged (A : Type) : Type := list (vector * Z) * outcome A.
Definition log {A} (m : logged A) : list (vector * Z) := fst m.
Definition outcome_of {A} (m : logged A) : outcome A := snd m.
(** Code that asks for nothing. *)
Definition quiet {A} (m : outcome A) : logged A := ([], m).
(** The vector [v] must have room for [n] entries. *)
Definition ask (v : vector) (n : Z) : logged unit := ([(v, n)], Ok tt).
Definition lbind {A B} (m : logged A) (k : A -> logged B) : logged B :=
  match snd m with
  | Ok a => let r := k a in (fst m ++ fst r, snd r)
  | Panic r => (fst m, Panic r)
  | OutOfFuel => (fst m, OutOfFuel)
  end.
Notation "x <+ m ;; k" := (lbind m (fun x => k)) (at level 61, m at next level, right associativity).
Notation "' p <+ m ;; k" := (lbind m (fun x => let p := x in k)) (at level 61, p pattern, m at next level, right associativity).
(** [for x in l]. *)
Fixpoint lfoldM {S X} (f : S -> X -> logged S) (l : list X) (s : S) : logged S :=
  match l with
  | [] => quiet (Ok s)
  | x :: l => s <+ f s x ;; lfoldM f l s
  end.
(** [Vec::push], [VecDeque::push_back]. *)
Definition pushL {A} (v : vector) (l : list A) (a : A) : logged (list A) :=
  _ <+ ask v (zlen l + 1) ;; quiet (Ok (l ++ [a])).

(** ** src/collections *)

(** bitstream.rs:235-239.  [allocate_if_needed]. *)
Definition allocateL (s : bitstream) (chunk_idx : Z) : logged bitstream :=
  if zlen (bs_binary s) <=? chunk_idx
  then b <+ pushL (Table Chunks) (bs_binary s) 0 ;; quiet (Ok (mkBS b (bs_cursor s) (bs_capacity s)))
  else quiet (Ok s).
(** bitstream.rs:112-139.  [write_bits]. *)
Definition write_bitsL (p : profile) (s : bitstream) (val num_bits : Z) : logged bitstream :=
  let cur := chunk_index s in
  nxt <+ quiet (uchk p 64 (cur + 1)) ;;
  let bit_idx := chunk_bit_index s in
  s <+ allocateL s cur ;;
  s <+ allocateL s nxt ;;
  c0 <+ quiet (index (bs_binary s) cur) ;;
  let c1 := Z.land c0 (Z.shiftl 1 bit_idx - 1) in
  let c2 := Z.lor c1 (uwrap 128 (Z.shiftl val bit_idx)) in
  b <+ quiet (store (bs_binary s) cur c2) ;;
  let s := set_binary s b in
  let remaining := CHUNK_SIZE_IN_BITS - bit_idx in
  s <+ quiet (if remaining <? num_bits then
                n0 <- index (bs_binary s) nxt ;;
                one <- ushl p 128 1 (num_bits - remaining) ;;
                mask <- uchk p 128 (one - 1) ;;
                let n1 := Z.land n0 mask in
                hi <- shr p 128 val remaining ;;
                b <- store (bs_binary s) nxt (Z.lor n1 hi) ;;
                Ok (set_binary s b)
              else Ok s) ;;
  quiet (offset_bit_cursor p s num_bits).
(** bitstream.rs:141-169.  [peek_bits]. *)
Definition peek_bitsL (p : profile) (s : bitstream) (num_bits : Z) : logged (bitstream * Z) :=
  let mask := if uwrap 32 num_bits <? 128 then Z.shiftl 1 (uwrap 32 num_bits) - 1
              else 2 ^ 128 - 1 in
  let cur := chunk_index s in
  nxt <+ quiet (uchk p 64 (cur + 1)) ;;
  let bit_idx := chunk_bit_index s in
  s <+ allocateL s cur ;;
  s <+ allocateL s nxt ;;
  quiet (if zlen (bs_binary s) <=? cur then Ok (s, 0)
         else
           c <- index (bs_binary s) cur ;;
           let bits := Z.shiftr c bit_idx in
           let remaining := 128 - bit_idx in
           bits <- (if remaining <? num_bits then
                      n <- index (bs_binary s) nxt ;;
                      hi <- ushl p 128 n remaining ;;
                      Ok (Z.lor bits hi)
                    else Ok bits) ;;
           Ok (s, Z.land bits mask)).
(** bitstream.rs:175-183.  [write_bit]. *)
Definition write_bitL (p : profile) (s : bitstream) (val : Z) : logged bitstream :=
  let bit := Z.land val 1 in
  let idx := chunk_index s in
  let bit_idx := chunk_bit_index s in
  s <+ allocateL s idx ;;
  c0 <+ quiet (index (bs_binary s) idx) ;;
  let c1 := Z.land c0 (Z.shiftl 1 bit_idx - 1) in
  let c2 := Z.lor c1 (uwrap 128 (Z.shiftl bit bit_idx)) in
  b <+ quiet (store (bs_binary s) idx c2) ;;
  quiet (offset_bit_cursor p (set_binary s b) 1).
(** bitstream.rs:202-206, 208-213, 224-233.  [read_bits], [read::<T>]. *)
Definition read_bitsL (p : profile) (s : bitstream) (n : Z) : logged (bitstream * Z) :=
  '(s, v) <+ peek_bitsL p s n ;;
  s <+ quiet (offset_bit_cursor p s n) ;;
  quiet (Ok (s, v)).
(** bitstream.rs:302-310.  The unary loop of [write_compressed]. *)
Fixpoint write_unaryL (p : profile) (fuel : nat) (s : bitstream) (quotient : Z) : logged bitstream :=
  match fuel with
  | O => quiet OutOfFuel
  | S fuel =>
      if 0 <? quotient then
        if 128 <? quotient then
          s <+ write_bitsL p s (2 ^ 128 - 1) 128 ;;
          write_unaryL p fuel s (quotient - 128)
        else write_bitsL p s (2 ^ 128 - 1) quotient
      else quiet (Ok s)
  end.
(** bitstream.rs:283-318.  [write_compressed]. *)
Definition write_compressedL (p : profile) (s : bitstream) (exponent entropy : Z) : logged bitstream :=
  let sign_bit := if entropy <? 0 then 1 else 0 in
  mag <+ quiet (schk p 16 (Z.abs entropy)) ;;
  quotient <+ quiet (shr p 16 mag exponent) ;;
  mag' <+ quiet (schk p 16 (Z.abs entropy)) ;;
  one <+ quiet (sshl p 16 1 exponent) ;;
  mask <+ quiet (schk p 16 (one - 1)) ;;
  let remainder := Z.land mag' mask in
  let remainder_size := uwrap 64 exponent in
  s <+ write_bitL p s sign_bit ;;
  s <+ write_unaryL p 257 s quotient ;;
  s <+ write_bitL p s 0 ;;
  write_bitsL p s (uwrap 32 remainder) remainder_size.
(** bitstream.rs:332-338.  The loop that skips full chunks of ones. *)
Fixpoint skip_onesL (p : profile) (fuel : nat) (s : bitstream) (quotient : Z) : logged (bitstream * Z * Z) :=
  match fuel with
  | O => quiet OutOfFuel
  | S fuel =>
      '(s, chunk) <+ peek_bitsL p s 128 ;;
      if chunk =? 2 ^ 128 - 1 then
        s <+ quiet (offset_bit_cursor p s 128) ;;
        q <+ quiet (schk p 16 (quotient + 128)) ;;
        skip_onesL p fuel s q
      else quiet (Ok (s, quotient, chunk))
  end.
(** bitstream.rs:320-354.  [read_compressed]. *)
Definition read_compressedL (p : profile) (s : bitstream) (exponent : Z) : logged (bitstream * Z) :=
  '(s, sign_bit) <+ quiet (read_bit p s) ;;
  let remainder_size := uwrap 32 exponent in
  divisor <+ quiet (sshl p 16 1 exponent) ;;
  '(s, quotient, chunk) <+ skip_onesL p (S (S (length (bs_binary s)))) s 0 ;;
  let zero_bit_pos := trailing_ones 128 chunk in
  s <+ quiet (offset_bit_cursor p s (zero_bit_pos + 1)) ;;
  quotient <+ quiet (schk p 16 (quotient + zero_bit_pos)) ;;
  '(s, r) <+ read_bitsL p s remainder_size ;;
  let remainder := swrap 16 r in
  prod <+ quiet (schk p 16 (divisor * quotient)) ;;
  unsigned_val <+ quiet (schk p 16 (prod + remainder)) ;;
  neg_sign <+ quiet (schk p 16 (- sign_bit)) ;;
  a <+ quiet (schk p 16 (unsigned_val * neg_sign)) ;;
  pos <+ quiet (schk p 16 (1 - sign_bit)) ;;
  b <+ quiet (schk p 16 (unsigned_val * pos)) ;;
  v <+ quiet (schk p 16 (a + b)) ;;
  quiet (Ok (s, v)).
(** nibble_list.rs:32-40.  [push]. *)
Definition nl_pushL (p : profile) (n : nibble_list) (val : Z) : logged nibble_list :=
  let block := nl_count n / 2 in
  let nib := nl_count n mod 2 in
  data <+ (if zlen (nl_data n) <=? block then pushL (Table Exponents) (nl_data n) 0 else quiet (Ok (nl_data n))) ;;
  b <+ quiet (index data block) ;;
  data <+ quiet (store data block (Z.lor b (uwrap 8 (Z.shiftl val (4 * nib))))) ;;
  c <+ quiet (uchk p 32 (nl_count n + 1)) ;;
  quiet (Ok (mkNL data c)).
(** bitvec.rs:40-51.  [push]. *)
Definition bv_pushL (p : profile) (v : bitvec) (bit : Z) : logged bitvec :=
  let bit := Z.land bit 1 in
  let ci := bv_chunk_index (bv_cursor v) in
  let bi := bv_chunk_bit_index (bv_cursor v) in
  bin <+ (if zlen (bv_binary v) <=? ci then pushL (Table Flags) (bv_binary v) 0 else quiet (Ok (bv_binary v))) ;;
  c <+ quiet (index bin ci) ;;
  bin <+ quiet (store bin ci (Z.lor (clear_bit64 c bi) (Z.shiftl bit bi))) ;;
  quiet (bv_offset_cursor p (mkBV bin (bv_cursor v)) 1).

(** ** src/codec/adhoc/frame.rs *)

(** frame.rs:86-113.  [push]. *)
Definition fhs_pushL (p : profile) (f : frame_headers) (h : frame_header) : logged frame_headers :=
  let hc := fhs_cursor f in
  let is_init := if fh_is_init h then 1 else 0 in
  let cur64 := uwrap 64 (fh_bit_cursor h) in
  f' <+ (if fhs_len f <=? hc then
           e <+ nl_pushL p (fhs_exps f) (fh_exponent h) ;;
           b <+ bv_pushL p (fhs_inits f) is_init ;;
           sz <+ pushL (Table Sizes) (fhs_sizes f) (fh_size h) ;;
           cu <+ pushL (Table Positions) (fhs_cursors f) cur64 ;;
           hi <+ pushL (Table Histories) (fhs_hists f) (fh_history h) ;;
           quiet (Ok (mkFHS e b sz cu hi hc))
         else
           let e := nl_set (fhs_exps f) hc (fh_exponent h) in
           let b := bv_set (fhs_inits f) hc is_init in
           sz <+ quiet (store (fhs_sizes f) hc (fh_size h)) ;;
           cu <+ quiet (store (fhs_cursors f) hc cur64) ;;
           hi <+ quiet (store (fhs_hists f) hc (fh_history h)) ;;
           quiet (Ok (mkFHS e b sz cu hi hc))) ;;
  hc' <+ quiet (uchk p 32 (hc + 1)) ;;
  quiet (Ok (fhs_set_cursor f' hc')).
(** frame.rs:232-250, 269-287.  The entropy-encoding loop. *)
Fixpoint encode_samplesL (p : profile) (s : bitstream) (h : cstack Z) (e : Z) (samples : list f32)
  : logged (bitstream * cstack Z) :=
  match samples with
  | [] => quiet (Ok (s, h))
  | sample :: rest =>
      let current := truncate_sample sample in
      let predicted := predict_next h in
      s <+ write_compressedL p s e (residual current predicted) ;;
      encode_samplesL p s (cs_push h current) e rest
  end.
(** frame.rs:210-215.  The first three samples of an [Init] frame. *)
Fixpoint encode_rawL (p : profile) (s : bitstream) (h : cstack Z) (pcm : list f32) (ks : list Z)
  : logged (bitstream * cstack Z) :=
  match ks with
  | [] => quiet (Ok (s, h))
  | k :: ks =>
      samp <+ quiet (index pcm k) ;;
      let truncated := truncate_sample samp in
      s <+ write_bitsL p s (uwrap 16 truncated) 16 ;;
      encode_rawL p s (cs_push h truncated) pcm ks
  end.
(** frame.rs:193-291.  [encode_frame]. *)
Definition encode_frameL (p : profile) (c : frame_codec) (s : bitstream) (hs : frame_headers) (pcm : list f32)
  : logged (frame_codec * bitstream * frame_headers) :=
  match fc_state c with
  | CInit =>
      let cursor := bit_cursor s in
      '(s, h) <+ encode_rawL p s (fc_history c) pcm [0; 1; 2] ;;
      rest <+ quiet (slice_from pcm 3) ;;
      e <+ quiet (compute_optimal_divisor_exponent p h rest) ;;
      hs <+ fhs_pushL p hs (mkFH (uwrap 8 e) (uwrap 16 (zlen pcm)) cursor true (last3 h)) ;;
      '(s, h) <+ encode_samplesL p s h e rest ;;
      quiet (Ok (mkFC CEncoding h (fc_buffer c), s, hs))
  | CEncoding =>
      let h := fc_history c in
      e <+ quiet (compute_optimal_divisor_exponent p h pcm) ;;
      hs <+ fhs_pushL p hs (mkFH (uwrap 8 e) (uwrap 16 (zlen pcm)) (bit_cursor s) false (last3 h)) ;;
      '(s, h) <+ encode_samplesL p s h e pcm ;;
      quiet (Ok (mkFC CEncoding h (fc_buffer c), s, hs))
  | CDecoding => quiet (Panic InvalidState)
  end.
(** frame.rs:319-338, 346-365.  The entropy-decoding loop. *)
Fixpoint decode_samplesL (p : profile) (channel : Z) (s : bitstream) (h : cstack Z) (buf : list f32) (e : Z) (count : nat)
  : logged (bitstream * cstack Z * list f32) :=
  match count with
  | O => quiet (Ok (s, h, buf))
  | S count =>
      '(s, entropy) <+ read_compressedL p s e ;;
      let predicted := predict_next h in
      let current := zclamp (entropy + predicted) (-32768) 32767 in
      let decoded := fclamp (normalize_sample current) fm1 f1 in
      buf <+ pushL (Buffer channel) buf decoded ;;
      decode_samplesL p channel s (cs_push h current) buf e count
  end.
(** frame.rs:308-311. *)
Fixpoint decode_rawL (p : profile) (s : bitstream) (h : cstack Z) (n : nat) : logged (bitstream * cstack Z) :=
  match n with
  | O => quiet (Ok (s, h))
  | S n =>
      '(s, v) <+ read_bitsL p s 16 ;;
      decode_rawL p s (cs_push h (swrap 16 v)) n
  end.
(** frame.rs:294-371.  [decode_frame] of the codec of a channel. *)
Definition decode_frameL (p : profile) (channel : Z) (c : frame_codec) (s : bitstream) (hs : frame_headers)
  : logged (frame_codec * bitstream * frame_headers) :=
  '(hs, oh) <+ quiet (fhs_next p hs) ;;
  match oh with
  | None => quiet (Ok (c, s, hs))
  | Some hd =>
      match fc_state c with
      | CInit =>
          '(s, h) <+ decode_rawL p s (fc_history c) 3 ;;
          buf <+ pushL (Buffer channel) (fc_buffer c) (normalize_sample (cs_prev 0 h 3)) ;;
          buf <+ pushL (Buffer channel) buf (normalize_sample (cs_prev 0 h 2)) ;;
          buf <+ pushL (Buffer channel) buf (normalize_sample (cs_prev 0 h 1)) ;;
          '(s, h, buf) <+ decode_samplesL p channel s h buf (fh_exponent hd) (Z.to_nat (fh_size hd - 3)) ;;
          quiet (Ok (mkFC CDecoding h buf, s, hs))
      | CDecoding =>
          '(s, h, buf) <+ decode_samplesL p channel s (fc_history c) (fc_buffer c) (fh_exponent hd)
                            (Z.to_nat (fh_size hd)) ;;
          quiet (Ok (mkFC CDecoding h buf, s, hs))
      | CEncoding => quiet (Panic InvalidState)
      end
  end.

(** ** src/codec/adhoc.rs *)

(** adhoc.rs:234-253.  The per-channel loop of [encode]. *)
Definition encode_channelL (p : profile) (pcm : list f32) (num_channels num_chunks : Z) (c : adhoc) (channel : Z) : logged adhoc :=
  samples <+ quiet (deinterleave pcm num_channels channel num_chunks) ;;
  '(seq, samples) <+ quiet (dither p (ad_inv_scale c) (ad_seq c) samples) ;;
  fc <+ quiet (index (ad_channels c) channel) ;;
  '(fc, s, hs) <+ encode_frameL p fc (as_stream (ad_stream c)) (ad_headers c) samples ;;
  chs <+ quiet (store (ad_channels c) channel fc) ;;
  quiet (Ok (mkAdhoc hs chs (mkAS (as_info (ad_stream c)) s)
              (ad_level c) (ad_scale c) (ad_inv_scale c) seq)).
(** adhoc.rs:216-254, 321-325.  [encode]; line 231 resizes the scratch vector. *)
Definition ad_encodeL (p : profile) (c : adhoc) (pcm : list f32) : logged (adhoc * option Z) :=
  info <+ quiet (ad_info c) ;;
  let num_channels := si_channels info in
  num_chunks <+ quiet (udiv (zlen pcm) num_channels) ;;
  _ <+ ask Scratch num_chunks ;;
  c <+ lfoldM (encode_channelL p pcm num_channels num_chunks) (range num_channels) c ;;
  quiet (Ok (c, Some (zlen pcm))).
(** adhoc.rs:273-275.  Decode one frame for one channel. *)
Definition decode_channelL (p : profile) (d : dstate) (channel : Z) : logged dstate :=
  let '(chs, s, hs) := d in
  fc <+ quiet (index chs channel) ;;
  '(fc, s, hs) <+ decode_frameL p channel fc s hs ;;
  chs <+ quiet (store chs channel fc) ;;
  quiet (Ok (chs, s, hs)).
(** adhoc.rs:268-279.  [buffer_audio]. *)
Fixpoint buffer_audioL (p : profile) (num_channels : Z) (fuel : nat) (d : dstate) : logged (dstate * nat) :=
  match fuel with
  | O => quiet (Ok (d, O))
  | S fuel =>
      let '(chs, _, _) := d in
      if buffers_empty chs then
        d <+ lfoldM (decode_channelL p) (range num_channels) d ;;
        '(d, n) <+ buffer_audioL p num_channels fuel d ;;
        quiet (Ok (d, S n))
      else quiet (Ok (d, O))
  end.
(** adhoc.rs:285-300.  The output loop. *)
Fixpoint decode_loopL (p : profile) (num_channels : Z) (fuel : nat) (room : Z) (d : dstate) : logged (dstate * list f32) :=
  match fuel with
  | O => quiet OutOfFuel
  | S fuel =>
      if 0 <? room then
        '(d, attempts) <+ buffer_audioL p num_channels MAX_DECODE_ATTEMPTS d ;;
        if (MAX_DECODE_ATTEMPTS <=? attempts)%nat then quiet (Ok (d, []))
        else
          let '(chs, s, hs) := d in
          '(chs, out) <+ quiet (pop_block chs num_channels 0 (Z.to_nat num_channels) room) ;;
          '(d, outs) <+ decode_loopL p num_channels fuel (room - zlen out) (chs, s, hs) ;;
          quiet (Ok (d, out ++ outs))
      else quiet (Ok (d, []))
  end.
(** adhoc.rs:256-308, 327-330.  [decode]. *)
Definition ad_decodeL (p : profile) (c : adhoc) (buf : list f32) : logged (adhoc * list f32 * option Z) :=
  info <+ quiet (ad_info c) ;;
  let num_channels := si_channels info in
  blocks <+ quiet (udiv (zlen buf) num_channels) ;;
  let legal := blocks * num_channels in
  '(d, out) <+ decode_loopL p num_channels (S (length buf)) legal
                 (ad_channels c, as_stream (ad_stream c), ad_headers c) ;;
  let '(chs, s, hs) := d in
  let scaled := map (fun x => fmul x (ad_scale c)) (out ++ skipn (length out) buf) in
  let c := mkAdhoc hs chs (mkAS (as_info (ad_stream c)) s)
                   (ad_level c) (ad_scale c) (ad_inv_scale c) (ad_seq c) in
  quiet (Ok (c, scaled, if 0 <? zlen out then Some (zlen out) else None)).

(** ** src/codec/wav.rs *)

(** wav.rs:238-254.  [write_sample]. *)
Definition wav_write_sampleL (p : profile) (w : wav) (s : Z) : logged wav :=
  pcm <+ (if wav_cursor w <? wav_num_samples w then
            let i := Z.shiftl (wav_cursor w) 1 in
            quiet (pcm <- store (wav_pcm w) i (lo_byte s) ;;
                   store pcm (i + 1) (hi_byte s))
          else
            pcm <+ pushL Pcm (wav_pcm w) (lo_byte s) ;;
            pushL Pcm pcm (hi_byte s)) ;;
  quiet (wav_offset_cursor p (mkWav (wav_info w) pcm (wav_cursor w)) 1).
(** wav.rs:267-275.  [encode]. *)
Definition wav_encodeL (p : profile) (w : wav) (samples : list f32) : logged (wav * option Z) :=
  let ch := si_channels (wav_info w) in
  blocks <+ quiet (udiv (zlen samples) ch) ;;
  let valid := blocks * ch in
  w <+ lfoldM (fun w s => wav_write_sampleL p w (truncate_sample s))
              (firstn (Z.to_nat valid) samples) w ;;
  quiet (Ok (w, Some valid)).
