(** * Model of src/codec/adhoc.rs (serialisation is in Bincode.v) *)
From Coq Require Import ZArith List Bool.
From Verif Require Import Model.Base Model.F32 Model.Noise Model.Sample.
From Verif Require Import Model.BitStream Model.NibbleList Model.BitVec Model.CircularStack Model.Frame.
Import ListNotations.
Open Scope Z_scope.

(** adhoc.rs:19.  [MAX_DECODE_ATTEMPTS]. *)
Definition MAX_DECODE_ATTEMPTS : nat := 10.

(** audio_stream.rs:6-9.  [AudioStream]. *)
Record audio_stream := mkAS { as_info : option stream_info; as_stream : bitstream }.

(** adhoc.rs:30-57.  [AdhocCodec].  [deinterleaved_channel] is a scratch buffer that is
    completely overwritten before every use; it is not part of the state here. *)
Record adhoc := mkAdhoc {
  ad_headers : frame_headers;
  ad_channels : list frame_codec;
  ad_stream : audio_stream;
  ad_level : Z;
  ad_scale : f32;
  ad_inv_scale : f32;
  ad_seq : Z }.

(** adhoc.rs:60-71.  [AdhocCodec::new]. *)
Definition ad_new : adhoc :=
  mkAdhoc fhs_new [] (mkAS None bs_new) 0 f1 f1 314.

(** [Vec::resize]. *)
Definition resize {A} (l : list A) (n : Z) (a : A) : list A :=
  if zlen l <=? n then l ++ repeat a (Z.to_nat n - length l) else firstn (Z.to_nat n) l.

(** adhoc.rs:73-88.  [with_info], [set_info]. *)
Definition ad_set_info (c : adhoc) (i : stream_info) : adhoc :=
  mkAdhoc (ad_headers c) (resize (ad_channels c) (si_channels i) fc_new)
          (mkAS (Some i) (as_stream (ad_stream c)))
          (ad_level c) (ad_scale c) (ad_inv_scale c) (ad_seq c).

(** adhoc.rs:90-94.  [info]. *)
Definition ad_info (c : adhoc) : outcome stream_info := expect (as_info (ad_stream c)).

(** adhoc.rs:127-134.  [with_compression_level]. *)
Definition ad_with_level (c : adhoc) (level : Z) : adhoc :=
  let level := zclamp level 0 10 in
  let scale := f32_of_Z (Z.shiftl 1 level) in
  mkAdhoc (ad_headers c) (ad_channels c) (ad_stream c) level scale (fdiv f1 scale) (ad_seq c).

(** adhoc.rs:138-142.  [init]. *)
Definition ad_init (c : adhoc) : adhoc :=
  mkAdhoc (fhs_reset (ad_headers c)) (map fc_init (ad_channels c))
          (mkAS (as_info (ad_stream c)) (bs_seek_start (as_stream (ad_stream c))))
          (ad_level c) (ad_scale c) (ad_inv_scale c) (ad_seq c).

(** adhoc.rs:99-123.  [filesize_upperbound], in bits ([size_of::<StreamInfo>()] is 8). *)
Definition ad_filesize_upperbound (nibble_capacity : Z) (c : adhoc) : Z :=
  let audio_stream_header := 8 * 8 in
  let bits := bs_capacity_upperbound (as_stream (ad_stream c)) + 128 * 2 in
  (audio_stream_header + bits) + 32 + fhs_weight_upperbound nibble_capacity (ad_headers c).

(** adhoc.rs:149-160.  [calculate_sample_count_per_channel]. *)
Definition ad_sample_count (p : profile) (c : adhoc) : outcome Z :=
  info <- ad_info c ;;
  total <- foldM (fun acc i =>
                    h <- fhs_get (ad_headers c) i ;;
                    match h with
                    | Some h => uchk p 64 (acc + fh_size h)
                    | None => Ok acc
                    end) (range (fhs_len (ad_headers c))) 0 ;;
  udiv total (si_channels info).

(** adhoc.rs:222.  [DITHER_AMPLITUDE]. *)
Definition DITHER_AMPLITUDE : f32 := f_0_001.

(** adhoc.rs:244-249.  Dither one sample, then scale it down. *)
Definition dither_sample (inv_scale sample noise : f32) : f32 :=
  fmul (fadd sample (fmul (fmul noise DITHER_AMPLITUDE) (fsub f1 inv_scale))) inv_scale.

(** adhoc.rs:241-249.  [iter_mut().zip(seq.triangle())]: one draw per sample, none extra. *)
Fixpoint dither (p : profile) (inv_scale : f32) (seq : Z) (samples : list f32)
  : outcome (Z * list f32) :=
  match samples with
  | [] => Ok (seq, [])
  | s :: rest =>
      '(seq, noise) <- triangle_next p seq ;;
      '(seq, rest) <- dither p inv_scale seq rest ;;
      Ok (seq, dither_sample inv_scale s noise :: rest)
  end.

(** adhoc.rs:236-239.  Extract one channel of an interleaved slice. *)
Definition deinterleave (pcm : list f32) (num_channels channel num_chunks : Z)
  : outcome (list f32) :=
  mapM (fun k => index pcm (k * num_channels + channel)) (range num_chunks).

(** adhoc.rs:234-253.  The per-channel loop of [encode]. *)
Definition encode_channel (p : profile) (pcm : list f32) (num_channels num_chunks : Z)
  (c : adhoc) (channel : Z) : outcome adhoc :=
  samples <- deinterleave pcm num_channels channel num_chunks ;;
  '(seq, samples) <- dither p (ad_inv_scale c) (ad_seq c) samples ;;
  fc <- index (ad_channels c) channel ;;
  '(fc, s, hs) <- encode_frame p fc (as_stream (ad_stream c)) (ad_headers c) samples ;;
  chs <- store (ad_channels c) channel fc ;;
  Ok (mkAdhoc hs chs (mkAS (as_info (ad_stream c)) s)
              (ad_level c) (ad_scale c) (ad_inv_scale c) seq).

(** adhoc.rs:216-254, 321-325.  [encode]; the trait method always reports [Some(samples.len())]. *)
Definition ad_encode (p : profile) (c : adhoc) (pcm : list f32) : outcome (adhoc * option Z) :=
  info <- ad_info c ;;
  let num_channels := si_channels info in
  num_chunks <- udiv (zlen pcm) num_channels ;;
  c <- foldM (encode_channel p pcm num_channels num_chunks) (range num_channels) c ;;
  Ok (c, Some (zlen pcm)).

(** adhoc.rs:262-266.  [is_buffers_empty]. *)
Definition buffers_empty (chs : list frame_codec) : bool :=
  forallb (fun fc => match fc_buffer fc with [] => true | _ => false end) chs.

(** What decoding mutates: the channel codecs, the bit stream and the header list. *)
Definition dstate : Type := list frame_codec * bitstream * frame_headers.

(** adhoc.rs:273-275.  Decode one frame for one channel. *)
Definition decode_channel (p : profile) (d : dstate) (channel : Z) : outcome dstate :=
  let '(chs, s, hs) := d in
  fc <- index chs channel ;;
  '(fc, s, hs) <- decode_frame p fc s hs ;;
  chs <- store chs channel fc ;;
  Ok (chs, s, hs).

(** adhoc.rs:268-279.  [buffer_audio]: returns the number of attempts.  [fuel] counts
    down from MAX_DECODE_ATTEMPTS, so it is the loop's own bound. *)
Fixpoint buffer_audio (p : profile) (num_channels : Z) (fuel : nat) (d : dstate)
  : outcome (dstate * nat) :=
  match fuel with
  | O => Ok (d, O)
  | S fuel =>
      let '(chs, _, _) := d in
      if buffers_empty chs then
        d <- foldM (decode_channel p) (range num_channels) d ;;
        '(d, n) <- buffer_audio p num_channels fuel d ;;
        Ok (d, S n)
      else Ok (d, O)
  end.

(** adhoc.rs:290-299.  Pop one sample per channel into the output ([unwrap_or_default]
    yields 0.0).  Since the legal length is a multiple of the channel count the inner
    bound test on the output cursor never stops the loop early; it is kept. *)
Fixpoint pop_block (chs : list frame_codec) (num_channels channel : Z) (fuel : nat)
  (room : Z) : outcome (list frame_codec * list f32) :=
  match fuel with
  | O => Ok (chs, [])
  | S fuel =>
      if (0 <? room) && (channel <? num_channels) then
        fc <- index chs channel ;;
        let '(v, rest) := match fc_buffer fc with [] => (f0, []) | v :: r => (v, r) end in
        chs <- store chs channel (mkFC (fc_state fc) (fc_history fc) rest) ;;
        '(chs, out) <- pop_block chs num_channels (channel + 1) fuel (room - 1) ;;
        Ok (chs, v :: out)
      else Ok (chs, [])
  end.

(** adhoc.rs:285-300.  The output loop; returns the samples written, in order. *)
Fixpoint decode_loop (p : profile) (num_channels : Z) (fuel : nat) (room : Z) (d : dstate)
  : outcome (dstate * list f32) :=
  match fuel with
  | O => OutOfFuel
  | S fuel =>
      if 0 <? room then
        '(d, attempts) <- buffer_audio p num_channels MAX_DECODE_ATTEMPTS d ;;
        if (MAX_DECODE_ATTEMPTS <=? attempts)%nat then Ok (d, [])
        else
          let '(chs, s, hs) := d in
          '(chs, out) <- pop_block chs num_channels 0 (Z.to_nat num_channels) room ;;
          '(d, outs) <- decode_loop p num_channels fuel (room - zlen out) (chs, s, hs) ;;
          Ok (d, out ++ outs)
      else Ok (d, [])
  end.

(** adhoc.rs:256-308, 327-330.  [decode]: writes the decoded samples over the front of the
    buffer, multiplies the whole buffer by [scale], reports the number written. *)
Definition ad_decode (p : profile) (c : adhoc) (buf : list f32)
  : outcome (adhoc * list f32 * option Z) :=
  info <- ad_info c ;;
  let num_channels := si_channels info in
  blocks <- udiv (zlen buf) num_channels ;;
  let legal := blocks * num_channels in
  '(d, out) <- decode_loop p num_channels (S (length buf)) legal
                 (ad_channels c, as_stream (ad_stream c), ad_headers c) ;;
  let '(chs, s, hs) := d in
  let buf := map (fun x => fmul x (ad_scale c)) (out ++ skipn (length out) buf) in
  let c := mkAdhoc hs chs (mkAS (as_info (ad_stream c)) s)
                   (ad_level c) (ad_scale c) (ad_inv_scale c) (ad_seq c) in
  Ok (c, buf, if 0 <? zlen out then Some (zlen out) else None).

(** std::io::SeekFrom. *)
Inductive seek_from := SStart (n : Z) | SCurrent (n : Z) | SEnd (n : Z).

(** adhoc.rs:363-376.  The walk over frame blocks; returns [samples_skipped] and
    [header_block_index]. *)
Fixpoint seek_walk (p : profile) (hs : frame_headers) (channels offset_in_blocks : Z)
  (fuel : nat) (samples_skipped idx header_block_len : Z) : outcome (Z * Z) :=
  match fuel with
  | O => OutOfFuel
  | S fuel =>
      if (idx <? header_block_len) && (samples_skipped <? offset_in_blocks) then
        i <- uchk p 64 (idx * channels) ;;
        oh <- fhs_get hs i ;;
        h <- expect oh ;;
        header_size <- uchk p 64 (fh_size h * channels) ;;
        sum <- uchk p 64 (samples_skipped + header_size) ;;
        if offset_in_blocks <=? sum then Ok (samples_skipped, idx)
        else seek_walk p hs channels offset_in_blocks fuel sum (idx + 1) header_block_len
      else Ok (samples_skipped, idx)
  end.

(** adhoc.rs:399-416.  Restore one channel from its header and decode its frame. *)
Definition seek_channel (p : profile) (start : Z) (d : dstate) (offset : Z) : outcome dstate :=
  let '(chs, s, hs) := d in
  oh <- fhs_get hs (start + offset) ;;
  hd <- expect oh ;;
  fc <- index chs offset ;;
  let '(h3, h2, h1) := fh_history hd in
  let hist := cs_push (cs_push (cs_push (fc_history fc) h3) h2) h1 in
  let fc := mkFC (if fh_is_init hd then CInit else CDecoding) hist [] in
  '(fc, s, hs) <- decode_frame p fc s hs ;;
  chs <- store chs offset fc ;;
  Ok (chs, s, hs).

(** adhoc.rs:420-427.  Drop one block from the front of every buffer. *)
Definition drop_front (fc : frame_codec) : frame_codec :=
  mkFC (fc_state fc) (fc_history fc) (tl (fc_buffer fc)).
(** The prune loop adds [channels] per round; with [channels = 0] it would not end, but
    then [frame_header_list.len() / channels] has already panicked. *)
Fixpoint prune (fuel : nat) (channels skipped target : Z) (chs : list frame_codec)
  : outcome (list frame_codec) :=
  if skipped <? target then
    match fuel with
    | O => OutOfFuel
    | S fuel =>
        let n := Z.to_nat channels in
        prune fuel channels (skipped + channels) target
              (map drop_front (firstn n chs) ++ skipn n chs)
    end
  else Ok chs.

(** adhoc.rs:332-433.  [seek]. *)
Definition ad_seek (p : profile) (c : adhoc) (dt : seek_from) : outcome adhoc :=
  info <- ad_info c ;;
  let channels := si_channels info in
  let freq_ms := fdiv (f32_of_Z (si_rate info)) f1000 in
  let c := ad_init c in
  match dt with
  | SStart dt =>
      if dt =? 0 then Ok c
      else
        let offset := f32_as_u64 (fmul freq_ms (f32_of_Z dt)) in
        offset_in_blocks <- uchk p 64 (offset * channels) ;;
        let hs := ad_headers c in
        block_len <- udiv (fhs_len hs) channels ;;
        '(skipped, idx) <- seek_walk p hs channels offset_in_blocks
                             (S (Z.to_nat (fhs_len hs))) 0 0 block_len ;;
        let start := idx * channels in
        oh <- fhs_get hs start ;;
        hd <- expect oh ;;
        let s := set_bit_cursor (as_stream (ad_stream c)) (fh_bit_cursor hd) in
        let hs := fhs_set_cursor hs (uwrap 32 start) in
        '(chs, s, hs) <- foldM (seek_channel p start) (range channels) (ad_channels c, s, hs) ;;
        chs <- prune (Z.to_nat (offset_in_blocks - skipped)) channels skipped offset_in_blocks chs ;;
        Ok (mkAdhoc hs chs (mkAS (as_info (ad_stream c)) s)
                    (ad_level c) (ad_scale c) (ad_inv_scale c) (ad_seq c))
  | _ => Panic NotImplemented
  end.
