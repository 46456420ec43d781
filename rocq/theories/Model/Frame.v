(** * Model of src/codec/adhoc/frame.rs and audio_stream.rs *)
From Coq Require Import ZArith List Bool.
From Verif Require Import Model.Base Model.F32 Model.Sample.
From Verif Require Import Model.BitStream Model.NibbleList Model.BitVec Model.CircularStack.
Import ListNotations.
Open Scope Z_scope.

(** frame.rs:8-14.  [FrameHeader]; [stack_history : [i16; 3]] is a triple, oldest first. *)
Record frame_header := mkFH {
  fh_exponent : Z;          (* u8 *)
  fh_size : Z;              (* u16 *)
  fh_bit_cursor : Z;        (* u128 *)
  fh_is_init : bool;
  fh_history : Z * Z * Z }.

(** frame.rs:19-27.  [FrameHeaders]. *)
Record frame_headers := mkFHS {
  fhs_exps : nibble_list;            (* divisor_exp_list *)
  fhs_inits : bitvec;                (* is_init_frame_list *)
  fhs_sizes : list Z;                (* frame_size_list : Vec<u16> *)
  fhs_cursors : list Z;              (* bit_cursor_list : Vec<u64> *)
  fhs_hists : list (Z * Z * Z);      (* stack_history_list : Vec<[i16; 3]> *)
  fhs_cursor : Z }.                  (* header_cursor : u32 *)

(** frame.rs:30-39.  [FrameHeaders::new]. *)
Definition fhs_new : frame_headers := mkFHS nl_new bv_new [] [] [] 0.

(** frame.rs:136-142, 132-134.  [len], [reset], [set_cursor]. *)
Definition fhs_len (f : frame_headers) : Z := nl_len (fhs_exps f).
Definition fhs_set_cursor (f : frame_headers) (i : Z) : frame_headers :=
  mkFHS (fhs_exps f) (fhs_inits f) (fhs_sizes f) (fhs_cursors f) (fhs_hists f) i.
Definition fhs_reset (f : frame_headers) : frame_headers := fhs_set_cursor f 0.

(** frame.rs:86-113.  [push]: appends when the cursor is at the end, else overwrites. *)
Definition fhs_push (p : profile) (f : frame_headers) (h : frame_header)
  : outcome frame_headers :=
  let hc := fhs_cursor f in
  let is_init := if fh_is_init h then 1 else 0 in
  let cur64 := uwrap 64 (fh_bit_cursor h) in
  f' <- (if fhs_len f <=? hc then
           e <- nl_push p (fhs_exps f) (fh_exponent h) ;;
           b <- bv_push p (fhs_inits f) is_init ;;
           Ok (mkFHS e b (fhs_sizes f ++ [fh_size h]) (fhs_cursors f ++ [cur64])
                     (fhs_hists f ++ [fh_history h]) hc)
         else
           let e := nl_set (fhs_exps f) hc (fh_exponent h) in
           let b := bv_set (fhs_inits f) hc is_init in
           sz <- store (fhs_sizes f) hc (fh_size h) ;;
           cu <- store (fhs_cursors f) hc cur64 ;;
           hi <- store (fhs_hists f) hc (fh_history h) ;;
           Ok (mkFHS e b sz cu hi hc)) ;;
  hc' <- uchk p 32 (hc + 1) ;;
  Ok (fhs_set_cursor f' hc').

(** frame.rs:115-130.  [get]. *)
Definition fhs_get (f : frame_headers) (i : Z) : outcome (option frame_header) :=
  if i <? fhs_len f then
    sz <- index (fhs_sizes f) i ;;
    cu <- index (fhs_cursors f) i ;;
    hi <- index (fhs_hists f) i ;;
    Ok (Some (mkFH (nl_get (fhs_exps f) i) sz cu (bv_get (fhs_inits f) i =? 1) hi))
  else Ok None.

(** frame.rs:145-161.  [Iterator::next]. *)
Definition fhs_next (p : profile) (f : frame_headers)
  : outcome (frame_headers * option frame_header) :=
  let hc := fhs_cursor f in
  if hc <? fhs_len f then
    sz <- index (fhs_sizes f) hc ;;
    cu <- index (fhs_cursors f) hc ;;
    hi <- index (fhs_hists f) hc ;;
    let h := mkFH (nl_get (fhs_exps f) hc) sz cu (bv_get (fhs_inits f) hc =? 1) hi in
    hc' <- uchk p 32 (hc + 1) ;;
    Ok (fhs_set_cursor f hc', Some h)
  else Ok (f, None).

(** frame.rs:43-84.  [calculate_weight_upperbound]; [nibble_capacity] is the byte
    capacity of the exponent list's [Vec<u8>], which the allocator chooses. *)
Definition fhs_weight_upperbound (nibble_capacity : Z) (f : frame_headers) : Z :=
  let len := fhs_len f in
  let vector_header_size := 8 in
  (nibble_capacity * 8 + vector_header_size)
  + (bv_capacity (fhs_inits f) + vector_header_size)
  + (len * 16 + vector_header_size)
  + (len * 64 + vector_header_size)
  + (len * 48 + vector_header_size)
  + 32 + 32 + 128.

(** adhoc.rs:22-26.  [CodecState]. *)
Inductive codec_state := CInit | CEncoding | CDecoding.

(** frame.rs:166-170.  [FrameCodec]; the [VecDeque<f32>] is a list, front first. *)
Record frame_codec := mkFC {
  fc_state : codec_state;
  fc_history : cstack Z;
  fc_buffer : list f32 }.

(** frame.rs:173-179.  [FrameCodec::new]. *)
Definition fc_new : frame_codec := mkFC CInit (cs_new 0) [].

(** frame.rs:187-190.  [init]: the sample history is kept. *)
Definition fc_init (c : frame_codec) : frame_codec := mkFC CInit (fc_history c) [].

(** The last three samples of a history, oldest first: [prev(3)], [prev(2)], [prev(1)]. *)
Definition last3 (h : cstack Z) : Z * Z * Z :=
  (cs_prev 0 h 3, cs_prev 0 h 2, cs_prev 0 h 1).
Definition predict_next (h : cstack Z) : Z :=
  predict (cs_prev 0 h 3) (cs_prev 0 h 2) (cs_prev 0 h 1).

(** frame.rs:390-394.  One sample's contribution to [bit_sum_table] (all u32). *)
Definition cost_of (p : profile) (entropy k : Z) : outcome Z :=
  q <- uchk p 32 (Z.shiftr entropy k + 1) ;;
  a <- uchk p 32 (q + k) ;;
  uchk p 32 (a + 1).
Definition add_costs (p : profile) (table : list Z) (entropy : Z) : outcome (list Z) :=
  mapM (fun '(k, sum) =>
          if k =? 0 then Ok sum
          else c <- cost_of p entropy k ;; uchk p 32 (sum + c))
       (combine (range 16) table).

(** frame.rs:380-396.  The accumulation loop of [compute_optimal_divisor_exponent]. *)
Fixpoint sum_costs (p : profile) (h : cstack Z) (samples : list f32) (table : list Z)
  : outcome (list Z) :=
  match samples with
  | [] => Ok table
  | sample :: rest =>
      let current := truncate_sample sample in
      let predicted := predict_next h in
      let entropy := Z.abs (current - predicted) in
      table <- add_costs p table entropy ;;
      sum_costs p (cs_push h current) rest table
  end.

(** frame.rs:398-405.  Index of the first minimum among the positive entries at 1..15;
    [unwrap_or(1)]. *)
Definition first_min (l : list (Z * Z)) : option (Z * Z) :=
  fold_left (fun best '(k, b) =>
               match best with
               | None => Some (k, b)
               | Some (k0, b0) => if b <? b0 then Some (k, b) else Some (k0, b0)
               end) l None.
Definition pick_exponent (table : list Z) : Z :=
  match first_min (filter (fun '(_, b) => 0 <? b) (skipn 1 (combine (range 16) table))) with
  | Some (k, _) => k
  | None => 1
  end.

(** frame.rs:373-406.  [compute_optimal_divisor_exponent]. *)
Definition compute_optimal_divisor_exponent (p : profile) (h : cstack Z)
  (remaining : list f32) : outcome Z :=
  table <- sum_costs p h remaining (repeat 0 16) ;;
  Ok (pick_exponent table).

(** frame.rs:243-245, 280-282.  The residual that is written: clamped difference. *)
Definition residual (current predicted : Z) : Z :=
  zclamp (current - predicted) (-32768 + 1) (32767 - 1).

(** frame.rs:232-250, 269-287.  The entropy-encoding loop (identical in both states;
    [max_entropy] is never read and is omitted). *)
Fixpoint encode_samples (p : profile) (s : bitstream) (h : cstack Z) (e : Z)
  (samples : list f32) : outcome (bitstream * cstack Z) :=
  match samples with
  | [] => Ok (s, h)
  | sample :: rest =>
      let current := truncate_sample sample in
      let predicted := predict_next h in
      s <- write_compressed p s e (residual current predicted) ;;
      encode_samples p s (cs_push h current) e rest
  end.

(** frame.rs:210-215.  The first three samples of an [Init] frame, verbatim
    ([pcm[k]] panics when the slice is shorter). *)
Fixpoint encode_raw (p : profile) (s : bitstream) (h : cstack Z) (pcm : list f32)
  (ks : list Z) : outcome (bitstream * cstack Z) :=
  match ks with
  | [] => Ok (s, h)
  | k :: ks =>
      samp <- index pcm k ;;
      let truncated := truncate_sample samp in
      s <- write_typed p s (uwrap 16 truncated) 16 ;;
      encode_raw p s (cs_push h truncated) pcm ks
  end.

(** frame.rs:193-291.  [encode_frame]. *)
Definition encode_frame (p : profile) (c : frame_codec) (s : bitstream)
  (hs : frame_headers) (pcm : list f32)
  : outcome (frame_codec * bitstream * frame_headers) :=
  match fc_state c with
  | CInit =>
      let cursor := bit_cursor s in
      '(s, h) <- encode_raw p s (fc_history c) pcm [0; 1; 2] ;;
      rest <- slice_from pcm 3 ;;
      e <- compute_optimal_divisor_exponent p h rest ;;
      hs <- fhs_push p hs (mkFH (uwrap 8 e) (uwrap 16 (zlen pcm)) cursor true (last3 h)) ;;
      '(s, h) <- encode_samples p s h e rest ;;
      Ok (mkFC CEncoding h (fc_buffer c), s, hs)
  | CEncoding =>
      let h := fc_history c in
      e <- compute_optimal_divisor_exponent p h pcm ;;
      hs <- fhs_push p hs (mkFH (uwrap 8 e) (uwrap 16 (zlen pcm)) (bit_cursor s) false (last3 h)) ;;
      '(s, h) <- encode_samples p s h e pcm ;;
      Ok (mkFC CEncoding h (fc_buffer c), s, hs)
  | CDecoding => Panic InvalidState
  end.

(** frame.rs:319-338, 346-365.  The entropy-decoding loop (identical in both states). *)
Fixpoint decode_samples (p : profile) (s : bitstream) (h : cstack Z) (buf : list f32)
  (e : Z) (count : nat) : outcome (bitstream * cstack Z * list f32) :=
  match count with
  | O => Ok (s, h, buf)
  | S count =>
      '(s, entropy) <- read_compressed p s e ;;
      let predicted := predict_next h in
      let current := zclamp (entropy + predicted) (-32768) 32767 in
      let decoded := fclamp (normalize_sample current) fm1 f1 in
      decode_samples p s (cs_push h current) (buf ++ [decoded]) e count
  end.

(** frame.rs:308-311.  Reading the three verbatim samples of an [Init] frame. *)
Fixpoint decode_raw (p : profile) (s : bitstream) (h : cstack Z) (n : nat)
  : outcome (bitstream * cstack Z) :=
  match n with
  | O => Ok (s, h)
  | S n =>
      '(s, v) <- read_typed p s 16 ;;
      decode_raw p s (cs_push h (swrap 16 v)) n
  end.

(** frame.rs:294-371.  [decode_frame]; the returned number of samples is never used by
    the callers and is omitted. *)
Definition decode_frame (p : profile) (c : frame_codec) (s : bitstream) (hs : frame_headers)
  : outcome (frame_codec * bitstream * frame_headers) :=
  '(hs, oh) <- fhs_next p hs ;;
  match oh with
  | None => Ok (c, s, hs)
  | Some hd =>
      match fc_state c with
      | CInit =>
          '(s, h) <- decode_raw p s (fc_history c) 3 ;;
          let buf := fc_buffer c ++ [normalize_sample (cs_prev 0 h 3);
                                     normalize_sample (cs_prev 0 h 2);
                                     normalize_sample (cs_prev 0 h 1)] in
          '(s, h, buf) <- decode_samples p s h buf (fh_exponent hd) (Z.to_nat (fh_size hd - 3)) ;;
          Ok (mkFC CDecoding h buf, s, hs)
      | CDecoding =>
          '(s, h, buf) <- decode_samples p s (fc_history c) (fc_buffer c) (fh_exponent hd)
                            (Z.to_nat (fh_size hd)) ;;
          Ok (mkFC CDecoding h buf, s, hs)
      | CEncoding => Panic InvalidState
      end
  end.
