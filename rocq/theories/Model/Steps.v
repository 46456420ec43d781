(** * How many steps the calls of the adhoc codec take

    The functions of BitStream.v, Frame.v and Adhoc.v again, with a counter.  A step is one test of a loop's condition, one item of
    an iterator, or one call of a function without loops; all other code is straight-line, so that the work of a call is its
    number of steps up to a constant factor.  [Vec::push], [VecDeque::push_back] and [pop_front] count as one step (they take
    constant time on average).  Erasing the counter gives the functions of the model: Proofs/StepFacts.v. *)
From Coq Require Import ZArith List Bool.
From Verif Require Import Model.Base Model.F32 Model.Noise Model.Sample.
From Verif Require Import Model.BitStream Model.NibbleList Model.BitVec Model.CircularStack Model.Frame Model.Adhoc.
Import ListNotations.
Open Scope Z_scope.

(** Steps taken, until the code returned or panicked, and the outcome. *)
Definition timed (A : Type) : Type := Z * outcome A.
Definition steps {A} (m : timed A) : Z := fst m.
Definition result {A} (m : timed A) : outcome A := snd m.
(** Code that takes [n] steps. *)
Definition run {A} (n : Z) (m : outcome A) : timed A := (n, m).
Definition tbind {A B} (m : timed A) (k : A -> timed B) : timed B :=
  match snd m with
  | Ok a => let r := k a in (fst m + fst r, snd r)
  | Panic r => (fst m, Panic r)
  | OutOfFuel => (fst m, OutOfFuel)
  end.
Notation "x <~ m ;; k" := (tbind m (fun x => k)) (at level 61, m at next level, right associativity).
Notation "' p <~ m ;; k" := (tbind m (fun x => let p := x in k)) (at level 61, p pattern, m at next level, right associativity).
(** [for x in l], one step for each item. *)
Fixpoint tfoldM {S X} (f : S -> X -> timed S) (l : list X) (s : S) : timed S :=
  match l with
  | [] => run 0 (Ok s)
  | x :: l => _ <~ run 1 (Ok tt) ;; s <~ f s x ;; tfoldM f l s
  end.

(** bitstream.rs:302-310.  The unary loop of [write_compressed]: a test, and a call of [write_bits]. *)
Fixpoint write_unaryT (p : profile) (fuel : nat) (s : bitstream) (quotient : Z) : timed bitstream :=
  match fuel with
  | O => run 0 OutOfFuel
  | S fuel =>
      _ <~ run 1 (Ok tt) ;;
      if 0 <? quotient then
        if 128 <? quotient then
          s <~ run 1 (write_bits p s (2 ^ 128 - 1) 128) ;;
          write_unaryT p fuel s (quotient - 128)
        else run 1 (write_bits p s (2 ^ 128 - 1) quotient)
      else run 0 (Ok s)
  end.
(** bitstream.rs:283-318.  [write_compressed]. *)
Definition write_compressedT (p : profile) (s : bitstream) (exponent entropy : Z) : timed bitstream :=
  let sign_bit := if entropy <? 0 then 1 else 0 in
  mag <~ run 1 (schk p 16 (Z.abs entropy)) ;;
  quotient <~ run 0 (shr p 16 mag exponent) ;;
  mag' <~ run 0 (schk p 16 (Z.abs entropy)) ;;
  one <~ run 0 (sshl p 16 1 exponent) ;;
  mask <~ run 0 (schk p 16 (one - 1)) ;;
  let remainder := Z.land mag' mask in
  let remainder_size := uwrap 64 exponent in
  s <~ run 1 (write_bit p s sign_bit) ;;
  s <~ write_unaryT p 257 s quotient ;;
  s <~ run 1 (write_bit p s 0) ;;
  run 1 (write_bits p s (uwrap 32 remainder) remainder_size).
(** bitstream.rs:332-338.  The loop that skips full chunks of ones: a [peek] for each test. *)
Fixpoint skip_onesT (p : profile) (fuel : nat) (s : bitstream) (quotient : Z) : timed (bitstream * Z * Z) :=
  match fuel with
  | O => run 0 OutOfFuel
  | S fuel =>
      '(s, chunk) <~ run 1 (peek_bits p s 128) ;;
      if chunk =? 2 ^ 128 - 1 then
        s <~ run 1 (offset_bit_cursor p s 128) ;;
        q <~ run 0 (schk p 16 (quotient + 128)) ;;
        skip_onesT p fuel s q
      else run 0 (Ok (s, quotient, chunk))
  end.
(** bitstream.rs:320-354.  [read_compressed]; the loop that counts the trailing ones takes one step for each and one for the
    last test. *)
Definition read_compressedT (p : profile) (s : bitstream) (exponent : Z) : timed (bitstream * Z) :=
  '(s, sign_bit) <~ run 2 (read_bit p s) ;;
  let remainder_size := uwrap 32 exponent in
  divisor <~ run 0 (sshl p 16 1 exponent) ;;
  '(s, quotient, chunk) <~ skip_onesT p (S (S (length (bs_binary s)))) s 0 ;;
  let zero_bit_pos := trailing_ones 128 chunk in
  s <~ run (zero_bit_pos + 2) (offset_bit_cursor p s (zero_bit_pos + 1)) ;;
  quotient <~ run 0 (schk p 16 (quotient + zero_bit_pos)) ;;
  '(s, r) <~ run 1 (read_bits p s remainder_size) ;;
  let remainder := swrap 16 r in
  prod <~ run 0 (schk p 16 (divisor * quotient)) ;;
  unsigned_val <~ run 0 (schk p 16 (prod + remainder)) ;;
  neg_sign <~ run 0 (schk p 16 (- sign_bit)) ;;
  a <~ run 0 (schk p 16 (unsigned_val * neg_sign)) ;;
  pos <~ run 0 (schk p 16 (1 - sign_bit)) ;;
  b <~ run 0 (schk p 16 (unsigned_val * pos)) ;;
  v <~ run 0 (schk p 16 (a + b)) ;;
  run 0 (Ok (s, v)).

(** frame.rs:380-396.  One step for the sample, one for the prediction, one for each of the fifteen exponents. *)
Fixpoint sum_costsT (p : profile) (h : cstack Z) (samples : list f32) (table : list Z) : timed (list Z) :=
  match samples with
  | [] => run 0 (Ok table)
  | sample :: rest =>
      let current := truncate_sample sample in
      let predicted := predict_next h in
      let entropy := Z.abs (current - predicted) in
      table <~ run 17 (add_costs p table entropy) ;;
      sum_costsT p (cs_push h current) rest table
  end.
(** frame.rs:373-406.  [compute_optimal_divisor_exponent]: the loop, then an iterator over the table of sixteen. *)
Definition compute_optimal_divisor_exponentT (p : profile) (h : cstack Z) (remaining : list f32) : timed Z :=
  table <~ sum_costsT p h remaining (repeat 0 16) ;;
  run 17 (Ok (pick_exponent table)).
(** frame.rs:232-250, 269-287.  The entropy-encoding loop: a test, a prediction, a code word. *)
Fixpoint encode_samplesT (p : profile) (s : bitstream) (h : cstack Z) (e : Z) (samples : list f32)
  : timed (bitstream * cstack Z) :=
  match samples with
  | [] => run 0 (Ok (s, h))
  | sample :: rest =>
      let current := truncate_sample sample in
      let predicted := predict_next h in
      _ <~ run 2 (Ok tt) ;;
      s <~ write_compressedT p s e (residual current predicted) ;;
      encode_samplesT p s (cs_push h current) e rest
  end.
(** frame.rs:210-215.  The first three samples of an [Init] frame. *)
Fixpoint encode_rawT (p : profile) (s : bitstream) (h : cstack Z) (pcm : list f32) (ks : list Z)
  : timed (bitstream * cstack Z) :=
  match ks with
  | [] => run 0 (Ok (s, h))
  | k :: ks =>
      samp <~ run 1 (index pcm k) ;;
      let truncated := truncate_sample samp in
      s <~ run 1 (write_typed p s (uwrap 16 truncated) 16) ;;
      encode_rawT p s (cs_push h truncated) pcm ks
  end.
(** frame.rs:193-291.  [encode_frame]. *)
Definition encode_frameT (p : profile) (c : frame_codec) (s : bitstream) (hs : frame_headers) (pcm : list f32)
  : timed (frame_codec * bitstream * frame_headers) :=
  match fc_state c with
  | CInit =>
      let cursor := bit_cursor s in
      '(s, h) <~ encode_rawT p s (fc_history c) pcm [0; 1; 2] ;;
      rest <~ run 0 (slice_from pcm 3) ;;
      e <~ compute_optimal_divisor_exponentT p h rest ;;
      hs <~ run 1 (fhs_push p hs (mkFH (uwrap 8 e) (uwrap 16 (zlen pcm)) cursor true (last3 h))) ;;
      '(s, h) <~ encode_samplesT p s h e rest ;;
      run 1 (Ok (mkFC CEncoding h (fc_buffer c), s, hs))
  | CEncoding =>
      let h := fc_history c in
      e <~ compute_optimal_divisor_exponentT p h pcm ;;
      hs <~ run 1 (fhs_push p hs (mkFH (uwrap 8 e) (uwrap 16 (zlen pcm)) (bit_cursor s) false (last3 h))) ;;
      '(s, h) <~ encode_samplesT p s h e pcm ;;
      run 1 (Ok (mkFC CEncoding h (fc_buffer c), s, hs))
  | CDecoding => run 1 (Panic InvalidState)
  end.

(** frame.rs:319-338, 346-365.  The entropy-decoding loop: a test, a prediction, a push, a code word. *)
Fixpoint decode_samplesT (p : profile) (s : bitstream) (h : cstack Z) (buf : list f32) (e : Z) (count : nat)
  : timed (bitstream * cstack Z * list f32) :=
  match count with
  | O => run 0 (Ok (s, h, buf))
  | S count =>
      _ <~ run 3 (Ok tt) ;;
      '(s, entropy) <~ read_compressedT p s e ;;
      let predicted := predict_next h in
      let current := zclamp (entropy + predicted) (-32768) 32767 in
      let decoded := fclamp (normalize_sample current) fm1 f1 in
      decode_samplesT p s (cs_push h current) (buf ++ [decoded]) e count
  end.
(** frame.rs:308-311. *)
Fixpoint decode_rawT (p : profile) (s : bitstream) (h : cstack Z) (n : nat) : timed (bitstream * cstack Z) :=
  match n with
  | O => run 0 (Ok (s, h))
  | S n =>
      '(s, v) <~ run 2 (read_typed p s 16) ;;
      decode_rawT p s (cs_push h (swrap 16 v)) n
  end.
(** frame.rs:294-371.  [decode_frame]. *)
Definition decode_frameT (p : profile) (c : frame_codec) (s : bitstream) (hs : frame_headers)
  : timed (frame_codec * bitstream * frame_headers) :=
  '(hs, oh) <~ run 2 (fhs_next p hs) ;;
  match oh with
  | None => run 0 (Ok (c, s, hs))
  | Some hd =>
      match fc_state c with
      | CInit =>
          '(s, h) <~ decode_rawT p s (fc_history c) 3 ;;
          let buf := fc_buffer c ++ [normalize_sample (cs_prev 0 h 3);
                                     normalize_sample (cs_prev 0 h 2);
                                     normalize_sample (cs_prev 0 h 1)] in
          '(s, h, buf) <~ decode_samplesT p s h buf (fh_exponent hd) (Z.to_nat (fh_size hd - 3)) ;;
          run 3 (Ok (mkFC CDecoding h buf, s, hs))
      | CDecoding =>
          '(s, h, buf) <~ decode_samplesT p s (fc_history c) (fc_buffer c) (fh_exponent hd)
                            (Z.to_nat (fh_size hd)) ;;
          run 0 (Ok (mkFC CDecoding h buf, s, hs))
      | CEncoding => run 0 (Panic InvalidState)
      end
  end.

(** adhoc.rs:241-249.  A step for each sample and each of the two draws. *)
Fixpoint ditherT (p : profile) (inv_scale : f32) (seq : Z) (samples : list f32) : timed (Z * list f32) :=
  match samples with
  | [] => run 0 (Ok (seq, []))
  | s :: rest =>
      '(seq, noise) <~ run 3 (triangle_next p seq) ;;
      '(seq, rest) <~ ditherT p inv_scale seq rest ;;
      run 0 (Ok (seq, dither_sample inv_scale s noise :: rest))
  end.
(** adhoc.rs:234-253.  The per-channel loop of [encode]; a step for each sample that is picked out. *)
Definition encode_channelT (p : profile) (pcm : list f32) (num_channels num_chunks : Z) (c : adhoc) (channel : Z) : timed adhoc :=
  samples <~ run num_chunks (deinterleave pcm num_channels channel num_chunks) ;;
  '(seq, samples) <~ ditherT p (ad_inv_scale c) (ad_seq c) samples ;;
  fc <~ run 1 (index (ad_channels c) channel) ;;
  '(fc, s, hs) <~ encode_frameT p fc (as_stream (ad_stream c)) (ad_headers c) samples ;;
  chs <~ run 0 (store (ad_channels c) channel fc) ;;
  run 0 (Ok (mkAdhoc hs chs (mkAS (as_info (ad_stream c)) s)
              (ad_level c) (ad_scale c) (ad_inv_scale c) seq)).
(** adhoc.rs:216-254, 321-325.  [encode]. *)
Definition ad_encodeT (p : profile) (c : adhoc) (pcm : list f32) : timed (adhoc * option Z) :=
  info <~ run 1 (ad_info c) ;;
  let num_channels := si_channels info in
  num_chunks <~ run 0 (udiv (zlen pcm) num_channels) ;;
  c <~ tfoldM (encode_channelT p pcm num_channels num_chunks) (range num_channels) c ;;
  run 0 (Ok (c, Some (zlen pcm))).

(** adhoc.rs:273-275.  Decode one frame for one channel. *)
Definition decode_channelT (p : profile) (d : dstate) (channel : Z) : timed dstate :=
  let '(chs, s, hs) := d in
  fc <~ run 0 (index chs channel) ;;
  '(fc, s, hs) <~ decode_frameT p fc s hs ;;
  chs <~ run 0 (store chs channel fc) ;;
  run 0 (Ok (chs, s, hs)).
(** adhoc.rs:268-279.  [buffer_audio]; [is_buffers_empty] (262-266) looks at each channel. *)
Fixpoint buffer_audioT (p : profile) (num_channels : Z) (fuel : nat) (d : dstate) : timed (dstate * nat) :=
  match fuel with
  | O => run 1 (Ok (d, O))
  | S fuel =>
      let '(chs, _, _) := d in
      _ <~ run (1 + zlen chs) (Ok tt) ;;
      if buffers_empty chs then
        d <~ tfoldM (decode_channelT p) (range num_channels) d ;;
        '(d, n) <~ buffer_audioT p num_channels fuel d ;;
        run 0 (Ok (d, S n))
      else run 0 (Ok (d, O))
  end.
(** adhoc.rs:290-299.  Pop one sample per channel: a test and a pop. *)
Fixpoint pop_blockT (chs : list frame_codec) (num_channels channel : Z) (fuel : nat) (room : Z)
  : timed (list frame_codec * list f32) :=
  match fuel with
  | O => run 1 (Ok (chs, []))
  | S fuel =>
      if (0 <? room) && (channel <? num_channels) then
        fc <~ run 2 (index chs channel) ;;
        let '(v, rest) := match fc_buffer fc with [] => (f0, []) | v :: r => (v, r) end in
        chs <~ run 0 (store chs channel (mkFC (fc_state fc) (fc_history fc) rest)) ;;
        '(chs, out) <~ pop_blockT chs num_channels (channel + 1) fuel (room - 1) ;;
        run 0 (Ok (chs, v :: out))
      else run 1 (Ok (chs, []))
  end.
(** adhoc.rs:285-300.  The output loop. *)
Fixpoint decode_loopT (p : profile) (num_channels : Z) (fuel : nat) (room : Z) (d : dstate) : timed (dstate * list f32) :=
  match fuel with
  | O => run 0 OutOfFuel
  | S fuel =>
      _ <~ run 1 (Ok tt) ;;
      if 0 <? room then
        '(d, attempts) <~ buffer_audioT p num_channels MAX_DECODE_ATTEMPTS d ;;
        if (MAX_DECODE_ATTEMPTS <=? attempts)%nat then run 0 (Ok (d, []))
        else
          let '(chs, s, hs) := d in
          '(chs, out) <~ pop_blockT chs num_channels 0 (Z.to_nat num_channels) room ;;
          '(d, outs) <~ decode_loopT p num_channels fuel (room - zlen out) (chs, s, hs) ;;
          run 0 (Ok (d, out ++ outs))
      else run 0 (Ok (d, []))
  end.
(** adhoc.rs:256-308, 327-330.  [decode]; a step for each sample that is scaled. *)
Definition ad_decodeT (p : profile) (c : adhoc) (buf : list f32) : timed (adhoc * list f32 * option Z) :=
  info <~ run 1 (ad_info c) ;;
  let num_channels := si_channels info in
  blocks <~ run 0 (udiv (zlen buf) num_channels) ;;
  let legal := blocks * num_channels in
  '(d, out) <~ decode_loopT p num_channels (S (length buf)) legal
                 (ad_channels c, as_stream (ad_stream c), ad_headers c) ;;
  let '(chs, s, hs) := d in
  let scaled := map (fun x => fmul x (ad_scale c)) (out ++ skipn (length out) buf) in
  let c := mkAdhoc hs chs (mkAS (as_info (ad_stream c)) s)
                   (ad_level c) (ad_scale c) (ad_inv_scale c) (ad_seq c) in
  run (zlen buf) (Ok (c, scaled, if 0 <? zlen out then Some (zlen out) else None)).

(** adhoc.rs:363-376.  The walk over frame blocks. *)
Fixpoint seek_walkT (p : profile) (hs : frame_headers) (channels offset_in_blocks : Z)
  (fuel : nat) (samples_skipped idx header_block_len : Z) : timed (Z * Z) :=
  match fuel with
  | O => run 0 OutOfFuel
  | S fuel =>
      _ <~ run 1 (Ok tt) ;;
      if (idx <? header_block_len) && (samples_skipped <? offset_in_blocks) then
        i <~ run 0 (uchk p 64 (idx * channels)) ;;
        oh <~ run 1 (fhs_get hs i) ;;
        h <~ run 0 (expect oh) ;;
        header_size <~ run 0 (uchk p 64 (fh_size h * channels)) ;;
        sum <~ run 0 (uchk p 64 (samples_skipped + header_size)) ;;
        if offset_in_blocks <=? sum then run 0 (Ok (samples_skipped, idx))
        else seek_walkT p hs channels offset_in_blocks fuel sum (idx + 1) header_block_len
      else run 0 (Ok (samples_skipped, idx))
  end.
(** adhoc.rs:399-416.  Restore one channel from its header and decode its frame. *)
Definition seek_channelT (p : profile) (start : Z) (d : dstate) (offset : Z) : timed dstate :=
  let '(chs, s, hs) := d in
  oh <~ run 1 (fhs_get hs (start + offset)) ;;
  hd <~ run 0 (expect oh) ;;
  fc <~ run 0 (index chs offset) ;;
  let '(h3, h2, h1) := fh_history hd in
  let hist := cs_push (cs_push (cs_push (fc_history fc) h3) h2) h1 in
  let fc := mkFC (if fh_is_init hd then CInit else CDecoding) hist [] in
  '(fc, s, hs) <~ decode_frameT p fc s hs ;;
  chs <~ run 3 (store chs offset fc) ;;
  run 0 (Ok (chs, s, hs)).
(** adhoc.rs:420-427.  The prune loop: a test, and a pop for each channel. *)
Fixpoint pruneT (fuel : nat) (channels skipped target : Z) (chs : list frame_codec) : timed (list frame_codec) :=
  if skipped <? target then
    match fuel with
    | O => run 0 OutOfFuel
    | S fuel =>
        let n := Z.to_nat channels in
        _ <~ run (1 + 2 * channels) (Ok tt) ;;
        pruneT fuel channels (skipped + channels) target
              (map drop_front (firstn n chs) ++ skipn n chs)
    end
  else run 1 (Ok chs).
(** adhoc.rs:332-433.  [seek]; [init] (138-142) takes a step for each channel. *)
Definition ad_seekT (p : profile) (c : adhoc) (dt : seek_from) : timed adhoc :=
  info <~ run 1 (ad_info c) ;;
  let channels := si_channels info in
  let freq_ms := fdiv (f32_of_Z (si_rate info)) f1000 in
  _ <~ run (1 + zlen (ad_channels c)) (Ok tt) ;;
  let c := ad_init c in
  match dt with
  | SStart dt =>
      if dt =? 0 then run 0 (Ok c)
      else
        let offset := f32_as_u64 (fmul freq_ms (f32_of_Z dt)) in
        offset_in_blocks <~ run 0 (uchk p 64 (offset * channels)) ;;
        let hs := ad_headers c in
        block_len <~ run 0 (udiv (fhs_len hs) channels) ;;
        '(skipped, idx) <~ seek_walkT p hs channels offset_in_blocks
                             (S (Z.to_nat (fhs_len hs))) 0 0 block_len ;;
        let start := idx * channels in
        oh <~ run 1 (fhs_get hs start) ;;
        hd <~ run 0 (expect oh) ;;
        let s := set_bit_cursor (as_stream (ad_stream c)) (fh_bit_cursor hd) in
        let hs := fhs_set_cursor hs (uwrap 32 start) in
        '(chs, s, hs) <~ tfoldM (seek_channelT p start) (range channels) (ad_channels c, s, hs) ;;
        chs <~ pruneT (Z.to_nat (offset_in_blocks - skipped)) channels skipped offset_in_blocks chs ;;
        run 0 (Ok (mkAdhoc hs chs (mkAS (as_info (ad_stream c)) s)
                    (ad_level c) (ad_scale c) (ad_inv_scale c) (ad_seq c)))
  | _ => run 0 (Panic NotImplemented)
  end.
(** adhoc.rs:149-160.  [calculate_sample_count_per_channel]: a step and a call of [get] for each frame. *)
Definition ad_sample_countT (p : profile) (c : adhoc) : timed Z :=
  info <~ run 1 (ad_info c) ;;
  total <~ tfoldM (fun acc i =>
                    h <~ run 1 (fhs_get (ad_headers c) i) ;;
                    match h with
                    | Some h => run 0 (uchk p 64 (acc + fh_size h))
                    | None => run 0 (Ok acc)
                    end) (range (fhs_len (ad_headers c))) 0 ;;
  run 0 (udiv total (si_channels info)).
