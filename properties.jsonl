{"id": "C01", "title": "Bit stream is a faithful append log", "statement": "On a fresh BitStream, any sequence of write_bit / write_bits(v,n) / write::<T> calls followed by seek_start and the matching sequence of reads returns, call by call, exactly the low n bits of each written value, and len() equals the sum of the widths written.", "quantifier": "every finite sequence of writes, every value, every width 0..=128, every alignment against the 128-bit chunks", "why_tests_cant": "the number of write sequences and chunk alignments is unbounded; a test samples a few widths and offsets", "anchors": ["src/collections/bitstream.rs::BitStream::write_bits", "src/collections/bitstream.rs::BitStream::write_bit", "src/collections/bitstream.rs::BitStream::peek_bits", "src/collections/bitstream.rs::BitStream::read_bits", "src/collections/bitstream.rs::BitStream::read_bit"]}
{"id": "C02", "title": "Entropy code round trip", "statement": "write_compressed(e,v) followed, after a rewind, by read_compressed(e) returns v and leaves the cursor exactly after the code word, for whole sequences of differently parameterised code words placed back to back at any bit offset, whatever bits follow them. With overflow checks on, exponent 15 always panics, whatever the value.", "quantifier": "every sequence of (exponent 0..=15, value -32767..=32767) pairs, every preceding and following stream content; exponent 15 only in builds without overflow checks", "why_tests_cant": "sequences and bit offsets are unbounded and unary quotients cross chunk boundaries in every possible way", "anchors": ["src/collections/bitstream.rs::BitStream::write_compressed", "src/collections/bitstream.rs::BitStream::read_compressed"]}
{"id": "C03", "title": "Entropy code is the documented Golomb-Rice code and is prefix free", "statement": "The bits emitted for (e,v) are a sign bit, floor(|v|/2^e) ones, a zero, then the e low bits of |v| least significant first; no code word for an exponent is a proper prefix of another, and the length is |v|/2^e + e + 2.", "quantifier": "every exponent 0..=15 (0..=14 in builds with overflow checks) and every 16-bit value except -32768", "why_tests_cant": "prefix-freeness relates all pairs of values", "anchors": ["src/collections/bitstream.rs::BitStream::write_compressed"]}
{"id": "C04", "title": "Capped entropy code round trip", "statement": "write_compressed_capped::<D>(v) then read_compressed_capped(D) returns v for every power-of-two divisor D and every v in CAPPED_MIN..=CAPPED_MAX; values outside that range either round trip or come back clamped to the range.", "quantifier": "every power-of-two divisor, every i16 other than -32768, any stream position", "why_tests_cant": "two-parameter space at every bit offset; the unit test fixes D=2 and offset 0", "anchors": ["src/collections/bitstream.rs::BitStream::write_compressed_capped", "src/collections/bitstream.rs::BitStream::read_compressed_capped"]}
{"id": "C05", "title": "Rewriting over old stream contents is not safe", "statement": "Writing over a rewound, previously used BitStream can return bits that were never written in the new pass (old bits are ORed into the part that spills into the next chunk); over memory that is zero beyond the cursor's chunk it is always exact.", "quantifier": "all old contents and new writes (exact law); existence of a corrupting history", "why_tests_cant": "needs a law relating arbitrary stale memory to every later write", "anchors": ["src/collections/bitstream.rs::BitStream::write_bits", "src/collections/bitstream.rs::BitStream::seek_start", "src/collections/bitstream.rs::BitStream::zero"]}
{"id": "C06", "title": "Codec round trip is exact on the quantised signal", "statement": "For any stream info, any compression level, any sequence of encode calls (first call at least 3 samples per channel, each at most 65535 per channel) whose prediction residuals fit the residual range, rewinding and decoding returns, in order and interleaved, exactly normalize(truncate(pre-processed sample)) * 2^level for every encoded sample, and nothing else.", "quantifier": "every channel count, level, signal, split of the signal into encode calls, and sequence of decode buffer sizes", "why_tests_cant": "signals, chunkings and buffer schedules are unbounded", "anchors": ["src/codec/adhoc.rs::AdhocCodec::encode", "src/codec/adhoc.rs::AdhocCodec::decode", "src/codec/adhoc/frame.rs::FrameCodec::encode_frame", "src/codec/adhoc/frame.rs::FrameCodec::decode_frame"]}
{"id": "C07", "title": "Decode is independent of the output buffer schedule", "statement": "The concatenation of what successive decode calls report does not depend on the buffer sizes used (as long as each holds at least one sample per channel): every schedule yields a prefix of one fixed sample sequence, and every schedule with enough total space yields all of it.", "quantifier": "every sequence of decode buffer lengths on every encoded stream", "why_tests_cant": "schedules are unbounded", "anchors": ["src/codec/adhoc.rs::AdhocCodec::decode"]}
{"id": "C08", "title": "Decode reports whole blocks and never over-reports", "statement": "decode returns None or Some(n) with 0 < n <= buffer length and n a multiple of the channel count; a buffer shorter than one block yields None and consumes nothing.", "quantifier": "every codec state and buffer", "why_tests_cant": "ranges over all states and lengths", "anchors": ["src/codec/adhoc.rs::AdhocCodec::decode", "src/codec/adhoc.rs::Streamable::decode"]}
{"id": "C09", "title": "Sample framing survives any input", "statement": "Whatever f32 values are encoded (NaN, infinities, full-scale noise), decoding yields exactly as many samples per channel as were encoded, with no loss of synchronisation, in builds without overflow checks.", "quantifier": "every f32 signal, every chunking", "why_tests_cant": "f32 signals include every special value at every position", "anchors": ["src/codec/adhoc/frame.rs::FrameCodec::encode_frame", "src/codec/adhoc/frame.rs::FrameCodec::decode_frame"]}
{"id": "C10", "title": "Level 0 is not lossless for every in-range signal", "statement": "There are signals in [-1,1] for which level 0 decoding is wrong by full scale (a zero sample decodes as 1), because residuals are clamped to 16 bits and the decoder then predicts from a different history; if residuals are not clamped the quantised signal is recovered exactly.", "quantifier": "existence of a signal; universally, signals whose residuals fit", "why_tests_cant": "the condition separating good and bad signals ranges over all signals", "anchors": ["src/codec/adhoc/frame.rs::FrameCodec::encode_frame", "src/codec/adhoc.rs::AdhocCodec::encode"]}
{"id": "C11", "title": "Bounded loss at level 4 and above, unconditionally", "statement": "At every compression level >= 4, every signal with samples in [-1,1] decodes to within 2^level*1.01/32767 + 0.00101 of the input, sample by sample, in debug and release builds, with no condition on the signal's shape. At levels 0 to 3 the same bound holds for every signal of size at most 2^level/8 - 0.002 (0.998 at level 3), and for louder ones on whose channels no prediction error is clamped. At level 3 full scale is too loud: four samples of alternating full scale make the silence after them decode to more than half of full scale.", "quantifier": "every level 4..=10 and beyond the clamp, every in-range signal, every chunking, every number of channels", "why_tests_cant": "f32 arithmetic over all signals, including every rounding case", "anchors": ["src/codec/adhoc.rs::AdhocCodec::encode", "src/math/parabola.rs::FixedParabola", "src/math/noise.rs::PseudoRandom", "src/codec.rs::truncate_sample", "src/codec.rs::normalize_sample"]}
{"id": "C12", "title": "Quantisation error at level 0", "statement": "For every finite sample in [-1,1], normalize(truncate(s)) is within 1.01/32767 of s; samples outside are clamped to the nearest end of the range; NaN becomes 0.", "quantifier": "all f32 values", "why_tests_cant": "2^32 inputs with rounding; the bound is a real-number statement", "anchors": ["src/codec.rs::truncate_sample", "src/codec.rs::normalize_sample"]}
{"id": "C13", "title": "Quiet signals are lossless at level 0", "statement": "If every sample is in [-1/8, 1/8], the level 0 round trip recovers the quantised signal exactly (no residual can be clamped).", "quantifier": "every signal of amplitude at most 1/8", "why_tests_cant": "all f32 signals", "anchors": ["src/codec/adhoc/frame.rs::FrameCodec::encode_frame", "src/math/parabola.rs"]}
{"id": "C14", "title": "Prediction is the quadratic extrapolation to within one step", "statement": "The value predicted from the last three 16-bit samples a,b,c (oldest first) differs by at most 1 from a-3b+3c clamped to +-32767.", "quantifier": "all 2^48 triples of samples", "why_tests_cant": "floating point evaluation over 2^48 triples", "anchors": ["src/math/parabola.rs::FixedParabola::compute_coefs", "src/math/parabola.rs::FixedParabola::eval", "src/codec/adhoc/frame.rs::FrameCodec::encode_frame"]}
{"id": "C15", "title": "Chosen parameter is optimal", "statement": "The entropy-code exponent stored for a frame minimises the number of bits that frame's residuals occupy among exponents 1..=15 (when no residual is clamped).", "quantifier": "every frame contents and history", "why_tests_cant": "all frames of all lengths", "anchors": ["src/codec/adhoc/frame.rs::FrameCodec::compute_optimal_divisor_exponent"]}
{"id": "C16", "title": "Worst-case expansion", "statement": "A frame of n samples never occupies more than 18 bits per sample plus 48 bits for a channel's first frame (17 per sample when no residual is clamped).", "quantifier": "every signal and frame length", "why_tests_cant": "worst case over all signals", "anchors": ["src/codec/adhoc/frame.rs::FrameCodec::encode_frame", "src/codec/adhoc/frame.rs::FrameCodec::compute_optimal_divisor_exponent"]}
{"id": "C17", "title": "Polynomial signals compress to three bits per sample", "statement": "Any channel whose quantised samples follow a quadratic (silence, constants, ramps included) costs at most 3 bits per sample after its first three samples.", "quantifier": "every quadratic integer sequence in range, of any length", "why_tests_cant": "unbounded family", "anchors": ["src/codec/adhoc/frame.rs::FrameCodec::encode_frame"]}
{"id": "C18", "title": "Seek lands on the right sample", "statement": "After encoding, seek(SeekFrom::Start(ms)) with a target inside the recording followed by decoding yields exactly the full decode with its first channels*floor(rate_ms*ms) samples dropped.", "quantifier": "every recording (no clamped residual), every frame structure, every in-range target", "why_tests_cant": "all pairs of recordings and targets", "anchors": ["src/codec/adhoc.rs::Streamable::seek"]}
{"id": "C19", "title": "Seek beyond the end panics", "statement": "seek to a position past the last encoded sample of an AdhocCodec panics instead of reporting end of stream (also any nonzero seek on an empty codec).", "quantifier": "every recording and every target beyond it", "why_tests_cant": "all recordings", "anchors": ["src/codec/adhoc.rs::Streamable::seek"]}
{"id": "C20", "title": "Rewind and replay", "statement": "After init() or seek(Start(0)), decoding returns the same sequence as the first decode, any number of times and from any decoding position.", "quantifier": "every position reached by any decode schedule, any number of replays", "why_tests_cant": "histories are unbounded", "anchors": ["src/codec/adhoc.rs::AdhocCodec::init", "src/codec/adhoc.rs::Streamable::seek"]}
{"id": "C21", "title": "Reusing an AdhocCodec for a second recording is broken", "statement": "The documented reuse (seek(Start(0)) then encode again) can return frames of the old recording after the new one, and can corrupt the new samples.", "quantifier": "existence of histories", "why_tests_cant": "needs a history of two recordings; shown by explicit witness, with the general stale-frame law", "anchors": ["src/codec/adhoc.rs::Streamable::seek", "src/codec/adhoc/frame.rs::FrameHeaders::push", "src/collections/bitstream.rs::BitStream::write_bits"]}
{"id": "C22", "title": "Saved files load back", "statement": "load(save(c)) succeeds and decodes to the same samples as c rewound, for every codec state reachable by encoding, decoding or seeking.", "quantifier": "every codec state", "why_tests_cant": "all states and recordings", "anchors": ["src/codec/adhoc.rs::AdhocCodec::save_to", "src/codec/adhoc.rs::AdhocCodec::load"]}
{"id": "C23", "title": "A torn file never loads", "statement": "Every strict prefix of a saved .adhoc file is rejected by load (a crash while saving cannot produce a file that loads as a shorter recording); bytes after the end are ignored.", "quantifier": "every codec state and every truncation point", "why_tests_cant": "all crash points of all files", "anchors": ["src/codec/adhoc.rs::AdhocCodec::save_to", "src/codec/adhoc.rs::AdhocCodec::load"]}
{"id": "C24", "title": "filesize_upperbound of AdhocCodec is not an upper bound", "statement": "The reported size is exactly the true serialized size minus 352 bits plus 8 bits per spare byte of the exponent list's capacity; so it under-reports whenever fewer than 44 spare bytes are reserved (for instance for a new codec).", "quantifier": "every codec state and allocator growth policy", "why_tests_cant": "exact relation over all states", "anchors": ["src/codec/adhoc.rs::AdhocCodec::filesize_upperbound", "src/codec/adhoc/frame.rs::FrameHeaders::calculate_weight_upperbound"]}
{"id": "C25", "title": "Sample count", "statement": "calculate_sample_count_per_channel equals the number of samples per channel fed to encode, for every chunking whose chunks have at most 65535 samples per channel.", "quantifier": "every chunking", "why_tests_cant": "all chunkings", "anchors": ["src/codec/adhoc.rs::AdhocCodec::calculate_sample_count_per_channel"]}
{"id": "C26", "title": "Oversized encode calls lose samples", "statement": "An encode call with more than 65535 samples per channel stores its length modulo 65536: the recording no longer decodes to the samples encoded.", "quantifier": "every frame length of at least 65536 (stored size law); existence of a lossy recording", "why_tests_cant": "the length law is over all lengths", "anchors": ["src/codec/adhoc/frame.rs::FrameCodec::encode_frame", "src/codec/adhoc/frame.rs::FrameHeader"]}
{"id": "C27", "title": "Partial blocks are dropped although reported", "statement": "AdhocCodec::encode encodes only whole blocks (floor(len/channels) per channel) but always reports all samples as encoded; WavCodec::encode reports only the whole blocks.", "quantifier": "every slice length and channel count", "why_tests_cant": "all lengths", "anchors": ["src/codec/adhoc.rs::Streamable::encode", "src/codec/wav.rs::Streamable::encode"]}
{"id": "C28", "title": "Short first call panics", "statement": "The first encode call (after creation or rewind) panics if it holds fewer than 3 samples per channel; in builds without overflow checks later calls accept any length up to 65535 samples per channel, including empty.", "quantifier": "every slice shorter than 3 blocks; every later slice", "why_tests_cant": "all lengths and states", "anchors": ["src/codec/adhoc/frame.rs::FrameCodec::encode_frame"]}
{"id": "C29", "title": "Nine empty encode calls hide the rest", "statement": "If at least 9 consecutive encode calls were empty, a decode loop that stops at None stops before the end of the recording although samples remain; with at most 8 in a row it never does.", "quantifier": "every recording", "why_tests_cant": "all runs of empty frames", "anchors": ["src/codec/adhoc.rs::AdhocCodec::decode", "src/codec/adhoc.rs::MAX_DECODE_ATTEMPTS"]}
{"id": "C30", "title": "Decode rescales the unreported tail of the buffer", "statement": "decode leaves buffer elements beyond the reported count unchanged at level 0, but multiplies them by 2^level at higher levels.", "quantifier": "every buffer, state and level", "why_tests_cant": "all buffers", "anchors": ["src/codec/adhoc.rs::AdhocCodec::decode"]}
{"id": "C31", "title": "Encode/decode mode discipline", "statement": "After encoding, decode without rewind returns None and consumes nothing; after any successful decode, encode without rewind panics.", "quantifier": "every recording", "why_tests_cant": "all histories", "anchors": ["src/codec/adhoc.rs::AdhocCodec::decode", "src/codec/adhoc/frame.rs::FrameCodec::encode_frame"]}
{"id": "C32", "title": "Debug builds panic on extreme signals", "statement": "In builds with overflow checks some in-range signals make encode panic (exponent 15 is selected and (1<<15)-1 overflows i16); a signal whose residuals all fit 15 bits never selects exponent 15 and never panics.", "quantifier": "existence; universally all signals with residuals at most 32767", "why_tests_cant": "all signals", "anchors": ["src/collections/bitstream.rs::BitStream::write_compressed", "src/codec/adhoc/frame.rs::FrameCodec::compute_optimal_divisor_exponent"]}
{"id": "C33", "title": "Compression level handling", "statement": "with_compression_level clamps to 10 and stores scale = 2^level and its exact reciprocal; load of a file with level >= 32 panics in debug builds.", "quantifier": "every u32 level", "why_tests_cant": "2^32 levels", "anchors": ["src/codec/adhoc.rs::AdhocCodec::with_compression_level", "src/codec/adhoc.rs::AdhocCodec::load"]}
{"id": "C34", "title": "Dither noise", "statement": "The dither sequence is deterministic from the seed, never overflows u64, and every triangle value lies strictly between -1 and 1; uniform values lie in [-1,1). The sequence every new or loaded codec uses repeats after exactly 126990 samples (2.6 seconds of one channel at 48 kHz), not sooner.", "quantifier": "every seed in range and every draw index", "why_tests_cant": "unbounded sequence", "anchors": ["src/math/noise.rs::PseudoRandom"]}
{"id": "C35", "title": "Frame header list refines a list of headers", "statement": "FrameHeaders behaves as a vector of headers with a write/read cursor: push overwrites at the cursor or appends, get(i) returns what was last pushed at i, next walks in order, across any operation sequence.", "quantifier": "every sequence of push/get/next/reset/set_cursor", "why_tests_cant": "operation sequences are unbounded; four packed representations must agree", "anchors": ["src/codec/adhoc/frame.rs::FrameHeaders"]}
{"id": "C36", "title": "NibbleList refines a list of nibbles", "statement": "push/set/get/iter on NibbleList behave as on a plain list for 4-bit values, for every sequence without clear; after clear, pushes can return stale bits, and a push of a value above 15 corrupts its neighbour.", "quantifier": "every operation sequence", "why_tests_cant": "operation sequences are unbounded", "anchors": ["src/collections/nibble_list.rs::NibbleList"]}
{"id": "C37", "title": "BitVec refines a list of bits", "statement": "push/set/get/iter/clear on BitVec behave as on a plain list of bits for every operation sequence, capacity() = compute_bits_required(max length reached).", "quantifier": "every operation sequence", "why_tests_cant": "operation sequences are unbounded", "anchors": ["src/collections/bitvec.rs::BitVec"]}
{"id": "C38", "title": "CircularStack remembers the last four", "statement": "prev(k) returns the k-th last pushed value for 1<=k<=min(len,4); pop returns the last pushed; len saturates at 4; is_empty() is wrong (it reports fullness).", "quantifier": "every push/pop sequence", "why_tests_cant": "operation sequences are unbounded", "anchors": ["src/collections/stack.rs::CircularStack"]}
{"id": "C39", "title": "FixedRingBuffer refines a bounded deque", "statement": "push_front/push_rear/pop_front/pop_rear/iter/len/clear agree with a bounded deque for every operation sequence and every power-of-two capacity up to 2^31; pushes on a full buffer are ignored.", "quantifier": "every operation sequence and capacity", "why_tests_cant": "operation sequences are unbounded", "anchors": ["src/collections/queue.rs::FixedRingBuffer"]}
{"id": "C40", "title": "LinkedList refines a sequence", "statement": "push/pop at both ends, insert_at and remove_at through live pointers, and iter agree with a plain list for every operation sequence; removed nodes are recycled and live pointers never alias.", "quantifier": "every operation sequence", "why_tests_cant": "pointer structures over unbounded histories", "anchors": ["src/collections/linked_list.rs::LinkedList"]}
{"id": "C41", "title": "LruCache is a least-recently-used cache", "statement": "put/get/get_mut/lookup/remove agree with an abstract recency list for every operation sequence and capacity >= 1: never more than capacity entries, evicts exactly the least recently used; capacity 0 panics on put.", "quantifier": "every operation sequence", "why_tests_cant": "operation sequences are unbounded", "anchors": ["src/collections/lru_cache.rs::LruCache"]}
{"id": "C42", "title": "WAV encode/decode round trip", "statement": "Samples encoded into a WavCodec and decoded from the start come back as normalize(truncate(s)), in order, for any chunking of encode and any schedule of decode buffers.", "quantifier": "every signal, chunking and schedule", "why_tests_cant": "unbounded", "anchors": ["src/codec/wav.rs::Streamable::encode", "src/codec/wav.rs::Streamable::decode", "src/codec/wav.rs::WavCodec::write_sample"]}
{"id": "C43", "title": "WAV save/load round trip", "statement": "load(save(w)) returns the same info and the same bytes for every WavCodec with at least 212 bytes of PCM whose parameters fit the header arithmetic, except for exactly one length (1635017024 bytes), whose RIFF size field reads 'data' so that load takes 32 header bytes for samples; with fewer than 212 bytes load fails.", "quantifier": "every PCM content and length, rate, channel count", "why_tests_cant": "all contents; a spurious 'data' tag could hide in header fields", "anchors": ["src/codec/wav.rs::WavCodec::save_to", "src/codec/wav.rs::WavCodec::load"]}
{"id": "C44", "title": "WAV file size", "statement": "WavCodec::filesize_upperbound equals 8 times the number of bytes save_to writes.", "quantifier": "every WavCodec", "why_tests_cant": "all states", "anchors": ["src/codec/wav.rs::Streamable::filesize_upperbound", "src/codec/wav.rs::WavCodec::save_to"]}
{"id": "C45", "title": "WAV load panics on a late data tag", "statement": "load panics (rather than returning Err) when the first 'data' tag within the first 256 bytes starts after byte 248; for every other input it returns Ok or Err.", "quantifier": "all files", "why_tests_cant": "all 256-byte headers", "anchors": ["src/codec/wav.rs::WavCodec::load"]}
{"id": "C46", "title": "WAV chunks after the data chunk become samples", "statement": "load ignores the data chunk size and turns every byte after the data header into PCM.", "quantifier": "all files", "why_tests_cant": "all files", "anchors": ["src/codec/wav.rs::WavCodec::load"]}
{"id": "C47", "title": "8-bit WAV expansion", "statement": "Loading an 8-bit file turns every byte b, in order, into one 16-bit sample: (2b-255)*32766/255 rounded towards zero, except byte 85, which becomes -10921 instead of -10922. The in-place expansion never reads a byte it already overwrote, the map is strictly monotone, 0/255 map to -32766/32766, and no byte maps to 0: silence (128) becomes 128.", "quantifier": "all 8-bit contents of any length", "why_tests_cant": "in-place loop over unbounded data", "anchors": ["src/codec/wav.rs::WavCodec::load"]}
{"id": "C48", "title": "WAV seek", "statement": "seek(Start/Current) clamps to the recording; on an empty recording it panics; SeekFrom::End(dt) behaves exactly like Start(dt); targets past the end land on the last sample, which for multi-channel audio is not the start of a block.", "quantifier": "all states and targets", "why_tests_cant": "all states", "anchors": ["src/codec/wav.rs::Streamable::seek"]}
{"id": "C49", "title": "PCM to float and back", "statement": "Converting a 16-bit sample to f32 and back returns it or its neighbour one step closer to zero; it is not the identity (1537 values change), and a second conversion changes nothing more.", "quantifier": "all 65536 samples", "why_tests_cant": "the crate has no such test; the claim needs all values", "anchors": ["src/codec.rs::truncate_sample", "src/codec.rs::normalize_sample"]}
{"id": "C50", "title": "CLI conversion end to end", "statement": "Converting a WAV file to .adhoc with the command line tool and converting the result back gives a WAV file with the same format and every whole block of samples. At level 0 each sample is at most one step off provided no prediction error is clamped (for instance when no sample exceeds 4094 in size); from level 4 on, without that proviso, the error is at most 1.01 * 2^level + 35.2 steps, so at most 67 at the default level 5; at levels 1 to 3 the same bound holds when no sample exceeds 4096 * 2^level - 70 in size. This holds for files of 1 to 341 channels with at least three blocks. Outside these limits the tool panics (fewer than three blocks in the first 1024 samples) or writes a file without samples (more than 1024 channels).", "quantifier": "every WAV file the reader accepts (8 or 16 bit, odd trailing byte included), both build profiles on either side, every track", "why_tests_cant": "all files, all lengths and channel counts, all sample values", "anchors": ["src/main.rs::convert_wav_to_adhoc", "src/main.rs::convert_adhoc_to_wav"]}
{"id": "C51", "title": "Corrupt .adhoc files can panic the decoder", "statement": "load accepts files whose header lists have inconsistent lengths or zero channels; decoding them panics.", "quantifier": "existence of files", "why_tests_cant": "needs reachability of a panic state from bytes", "anchors": ["src/codec/adhoc.rs::AdhocCodec::load", "src/codec/adhoc/frame.rs::FrameHeaders"]}
{"id": "C52", "title": "Convolution variants agree", "statement": "convolve_1d and convolve_1d_branchless write identical results for all samples and kernels.", "quantifier": "all inputs of all lengths", "why_tests_cant": "all inputs", "anchors": ["src/math/signal.rs"]}
{"id": "C53", "title": "Zeroing makes a bit stream reusable", "statement": "After zero() and a rewind, a bit stream that was written before behaves like a new one: whatever is written is read back, whatever was there before.", "quantifier": "every sequence of earlier writes and every sequence of later writes", "why_tests_cant": "write histories are unbounded", "anchors": ["src/collections/bitstream.rs::BitStream::zero"]}
{"id": "C54", "title": "One click makes the following silence a full-scale tone", "statement": "Record four zero samples, 0.3, -0.3 and then any amount of silence (one channel, level 0, silence split over any number of calls). From sample 34 on the input is exactly 0 and the decoded output is exactly +1 or -1 at every position that is not 1 mod 3, forever.", "quantifier": "every sample rate, every amount of silence, every split of the silence into calls, every decode schedule, both build profiles", "why_tests_cant": "A test decodes a finite recording; that the decoder never recovers is a statement about an unbounded future and needs an invariant (a limit cycle of the predictor).", "anchors": ["src/codec/adhoc/frame.rs::FrameCodec::encode_frame", "src/codec/adhoc/frame.rs::FrameCodec::decode_frame", "src/math/parabola.rs::FixedParabola"]}
{"id": "C55", "title": "WAV save_to loses header bytes on a short write", "statement": "save_to writes the header with write, not write_all, and ignores the count: into a resource that accepts k < 44 bytes of the header it reports success and leaves the first k header bytes followed by all samples.", "quantifier": "every WavCodec and every accepted count", "why_tests_cant": "Tests write to Vec<u8> or a file, which take the whole header at once; the law is about every possible short write.", "anchors": ["src/codecs/wav.rs:112-131"]}
{"id": "C56", "title": "Copying 16-bit audio through f32", "statement": "Playing a 16-bit WAV track into buffers and recording what each call reports into a new WavCodec copies every whole block; each copied sample is at most one step off, and is exact unless it is -32768 or lies exactly halfway between two 9-bit-precision values (such as 513, which becomes 512); copying the copy changes nothing further.", "quantifier": "every track of 16-bit samples, every channel count, every sequence of buffer sizes with enough room", "why_tests_cant": "the exactness claim is about two f32 roundings for all 65536 values combined with all tracks and all buffer splits; a sampled test misses the sparse halfway values", "anchors": ["src/codec.rs::truncate_sample", "src/codec.rs::normalize_sample", "src/codec/wav.rs::WavCodec::decode", "src/codec/wav.rs::WavCodec::encode"]}
{"id": "C57", "title": "Which file a conversion writes", "statement": "The command line tool writes the result of converting NAME.wav to NAME.adhoc in the output directory, and NAME.adhoc to NAME.wav, when NAME contains no further dot. With a further dot the name is cut there: S.X.wav goes to S.adhoc for every X. A leading dot belongs to the name: .X.wav goes to .X.adhoc, and a file called .wav is passed over. So take.1.wav and take.2.wav given in one run both write take.adhoc, and the one that finishes last stays. Converting back in the directory of the original replaces the original by the lossy copy. A file is taken up exactly if its extension is well-formed UTF-8 with wav or adhoc somewhere in it (one with both is converted both ways); all others, such as TAKE.WAV, are passed over without a message.", "quantifier": "every file name, directory, file contents, compression level and build profile", "why_tests_cant": "The claim is about all names and about the interplay of several files; a test tries a handful of names and one order of completion.", "anchors": ["src/main.rs:92-102", "src/main.rs:104-131", "src/main.rs:132-154"]}
{"id": "C58", "title": "Converting many files in parallel is independent of the schedule", "statement": "If no two inputs of a run have the same output and no output is also an input, then under every interleaving of the parallel conversions files that are nobody's output are never changed, and every input that is done has exactly the output it would have had alone; each input is done after at most six of its own steps. What it has alone: the converted file if the input is accepted, whatever stood there before if it is rejected. A conversion that panics while saving has already emptied its output: in debug builds an empty .adhoc recording of 2048 to 32767 channels does.", "quantifier": "every list of inputs, every file system contents and every interleaving of the steps read-and-convert, create, write", "why_tests_cant": "The number of interleavings is unbounded and the scheduler of the thread pool chooses among them; a test sees one.", "anchors": ["src/main.rs:84-91", "src/main.rs:92-102", "src/main.rs:104-154", "src/codec/wav.rs:112-131"]}
{"id": "C59", "title": "Damaged recordings play on", "statement": "In release builds a .adhoc file that loads and whose header lists are as long as its header count plays without a panic whatever its bytes are, and playback ends: the samples reported in all are at most the channel count times the sum of the frame sizes plus three each. If only the compressed data of a saved file is damaged, the file loads, reports the same settings and sample count, and every decode call reports the same count as for the undamaged file. Debug builds can panic on such damage, and so can a release build on a file whose header count exceeds its lists, because loading does not compare them.", "quantifier": "every byte string shorter than 2^56, every session that made the saved file, every pattern of damage, every sequence of buffers", "why_tests_cant": "The damage patterns are all byte strings; fuzzing samples a vanishing part of them, and that playback ends is a claim about all runs.", "anchors": ["src/codec/adhoc.rs:183-214", "src/codec/adhoc.rs:256-309", "src/codec/adhoc/frame.rs:294-371", "src/collections/bitstream.rs:320-354"]}
{"id": "C60", "title": "Damage does not reach back", "statement": "If bytes are damaged only behind the data of the first encode calls, the samples of those calls are decoded exactly as from the undamaged file, however the buffers cut the recording. In debug builds this holds as long as no more is asked for than those calls hold; release builds may go on. Damage does reach forward: one damaged byte can change the samples of all later calls.", "quantifier": "every recording split into first and later calls, every setting, every damage to the later data, every sequence of buffers", "why_tests_cant": "It quantifies over all recordings, all damage and all ways of reading; a test fixes all three.", "anchors": ["src/codec/adhoc.rs:256-309", "src/codec/adhoc/frame.rs:294-371", "src/collections/bitstream.rs:320-354"]}
{"id": "C61", "title": "A seek past the damage recovers", "statement": "If bytes are damaged only in the data of the first encode calls, then a seek to a block behind the first block of the later calls makes the decoder play on exactly as with the undamaged file, whatever was played or sought before on either. A seek to the very first block of the later calls need not recover, because it starts decoding in the damaged call before it.", "quantifier": "every recording split into first and later calls, every damage to the first data, every earlier playback, every target behind the damage, every sequence of buffers", "why_tests_cant": "The state in which the seek starts is the result of any playback history over damaged data; a test tries one.", "anchors": ["src/codec/adhoc.rs:332-432", "src/codec/adhoc/frame.rs:115-130", "src/codec/adhoc/frame.rs:294-371"]}
{"id": "C62", "title": "No crosstalk and no look-ahead", "statement": "What channel c sounds like during the first n blocks depends only on what was recorded on channel c during those n blocks, on the lengths of the encode calls that hold them, and on sample rate, channel count and level. Two recordings that agree there decode to identical samples at every position k*channels + c with k < n, whatever the other channels hold, whatever follows, and whichever of the two build profiles made each.", "quantifier": "every pair of recordings whose leading encode calls have equal lengths, every channel, every n up to the blocks in those calls, every level, every schedule of decode buffers", "why_tests_cant": "It is a non-interference claim: it compares all pairs of recordings that differ arbitrarily in other channels and in the future; a test can only try a few pairs.", "anchors": ["src/codec/adhoc.rs:332-432", "src/codec/adhoc.rs::AdhocCodec::encode", "src/codec/adhoc/frame.rs:193-371"]}
{"id": "C63", "title": "When the cutting into encode calls matters", "statement": "At level 0 the decoded samples depend only on the sequence of whole blocks recorded, not on how it was cut into encode calls; with one channel the same holds at every level. With two channels and level 4 it is false: the dither is drawn channel by channel inside each call, so the same samples handed over in one call or in two decode differently.", "quantifier": "every pair of recordings with the same whole blocks, every schedule of decode buffers; the failure is a concrete pair", "why_tests_cant": "The law quantifies over all ways of cutting all signals; a test compares a few cuts and would miss that the stereo case differs in the last bits only.", "anchors": ["src/codec/adhoc.rs::AdhocCodec::encode", "src/codec/adhoc/frame.rs:193-371", "src/math/noise.rs"]}
{"id": "C64", "title": "No call and no input file makes the library or the tool hang", "statement": "Every call on the adhoc codec (encode, decode, rewind, seek, sample count, load), from every state and with every argument, and every call on the WAV codec, returns or panics; none runs forever. Both conversions of the command line tool end on every input file, of whatever content.", "quantifier": "every codec state with a non-negative channel count and fewer than 2^63 chunks, reachable or not; every sample slice, buffer and seek target; every byte sequence shorter than 2^63 bytes as input file; both build profiles", "why_tests_cant": "A hang needs an input nobody thought of; the decoder's loops are driven by counts and prefix codes read from the file, so the claim quantifies over all file contents.", "anchors": ["src/codec/adhoc.rs::AdhocCodec::decode", "src/codec/adhoc.rs::AdhocCodec::seek", "src/codec/adhoc/frame.rs", "src/collections/bitstream.rs", "src/main.rs"]}
{"id": "C65", "title": "What loading a file allocates", "statement": "The tables of a loaded codec (exponents, init flags, sizes, bit cursors, histories, bit stream) together take at most the file's size minus 117 bytes of memory, whatever lengths the file claims. The channel states are not bounded that way: there is one for each channel the file claims, and a file of 117 bytes can claim 2^32 - 1.", "quantifier": "every file that loads, every build profile; the failure is a concrete file", "why_tests_cant": "The bound ranges over all file contents including dishonest length fields; the failing file would exhaust a test machine's memory rather than fail an assertion.", "anchors": ["src/codec/adhoc.rs::AdhocCodec::load", "src/codec/adhoc/frame.rs::FrameHeaderStream", "src/codec.rs::StreamInfo"]}
{"id": "C66", "title": "How large saved files are", "statement": "A saved recording of n samples (whole blocks, all channels together) made by k encode calls on ch channels takes between 3n + 39ch + 133*ch*k + 936 and 18n + 48ch + 133*ch*k + 1259 bits. So the cost per sample is between 3 and 18 bits at every compression level, and every encode call costs about 17 bytes per channel whatever it records. Files written by the command line tool, which encodes 1024 samples per call, take for one or two channels between 18.75% and 114.5% of the WAV file's sample bytes plus 203 bytes.", "quantifier": "every stream info, level, list of encode calls that encodes, build profile; every WAV file the tool can read and every level", "why_tests_cant": "The bounds hold for every signal, including the worst one for the adaptive code; a test measures the size of the signals it tries.", "anchors": ["src/codec/adhoc.rs::AdhocCodec::save_to", "src/codec/adhoc/frame.rs::FrameHeaderStream::push", "src/collections/bitstream.rs::BitStream::write_compressed", "src/main.rs::main"]}
{"id": "C67", "title": "Saving while a recording is being played", "statement": "Decode calls, rewinds and seeks before save_to do not change what the saved file plays: the loaded file has the same sample count and stream info, plays the whole recording from its start, and plays every seek target as the recording does. The file also saves the playback position, so its bytes may differ, but load goes back to the start.", "quantifier": "every recording that encodes, every sequence of decode calls, rewinds and seeks before the save, every seek and buffer schedule after the load, every build profile", "why_tests_cant": "Decoding changes the data that is saved (cursors move, memory is appended), so the claim ranges over every point at which playback may be interrupted.", "anchors": ["src/codec/adhoc.rs::AdhocCodec::save_to", "src/codec/adhoc.rs::AdhocCodec::load", "src/codec/adhoc.rs::AdhocCodec::init", "src/collections/bitstream.rs::BitStream::peek_bits"]}
{"id": "C68", "title": "Converting the result of a conversion again", "statement": "Converting a WAV file to .adhoc and back, over and over: at level 0, when no prediction error is clamped, everything that changes changes in the first round, and every later round gives back the same file byte for byte. From level 4 on, the error after k rounds is at most k times the bound for one round (1.01*2^min(level,10)+35.2 sample steps). It is not true that the file settles at level 5: a constant signal of 1000 is 960 in its third sample after one round and 928 after two.", "quantifier": "every readable WAV file with 106 to 2^31-19 samples (other than 817508512) in whole blocks and up to 341 channels, every number of rounds, every build profile in every step, every level from 4 (or level 0 with the stated guard)", "why_tests_cant": "The claim is an induction over an unbounded number of conversions of an arbitrary file; a test runs a few rounds of one file.", "anchors": ["src/main.rs::convert_wav_to_adhoc", "src/main.rs::convert_adhoc_to_wav", "src/codec.rs::truncate_sample", "src/codec/adhoc.rs::AdhocCodec::encode"]}
{"id": "C69", "title": "The compression level option", "statement": "The tool's -c option takes a decimal number below 2^32, with or without a plus sign and leading zeros, and every number above 10 acts as 10. Every other text (a sign alone, a negative or fractional number, spaces, words, a number of 2^32 or more) is used as level 5 without any message: the files written are the same as for -c 5. So a larger number can mean a lower level. When the output directory is not a directory nothing is read or written.", "quantifier": "every option text, every set of input files, every file contents, every schedule, every build profile", "why_tests_cant": "The claim is about every possible text of the option and every run of the tool; tests try a few texts, and the silent fallback gives no sign that a text was not understood.", "anchors": ["src/main.rs::cli", "src/main.rs::convert_file", "src/codec/adhoc.rs::AdhocCodec::with_compression_level"]}
{"id": "C70", "title": "A run of the tool that is interrupted, or whose writes fail", "statement": "At every moment of a run, and so also when the tool is killed, panics or a write fails: inputs and all files that are nobody's output are unchanged, and an output is what it was before, or empty, or a beginning of the right result. An input that is done has complete outputs, whatever happens to the others; an input the tool gave up on has a conversion that cannot be carried out. From every moment the run can be brought to an end. This holds when no two outputs are one file and no output is an input; when two outputs are one file, a run without errors can leave the longer result with the shorter one written over its beginning.", "quantifier": "every set of input files, every way of opening paths (links and other spellings included), every division of reading and writing into pieces, every interleaving of the parallel conversions, every moment of the run, every build profile", "why_tests_cant": "The claim ranges over all interleavings of the parallel conversions and all points at which the process may stop; a test sees the few schedules that happen to occur.", "anchors": ["src/main.rs::cli", "src/main.rs::convert_file", "src/main.rs::convert_wav_to_adhoc", "src/main.rs::convert_adhoc_to_wav"]}
{"id": "C71", "title": "A WavCodec is a tape recorder", "statement": "Any sequence of encode, decode and seek calls on a new WavCodec gives exactly the answers of a tape recorder with one head: encode writes the quantised samples of the whole blocks at the head and moves it past them, overwriting what is there and extending the tape at its end; decode reads whole blocks from the head and moves it past what was read; seek moves the head to the wanted sample, but not before the first or beyond the last sample, and a seek from the end acts like one from the start. Each position holds the sample written there last. The only panic is a seek on an empty recording. On a file that ends in an odd byte, recording at the end does not append whole samples: every byte is shifted by one, so the first appended sample is heard as the odd byte plus 256 times the low byte of the sample.", "quantifier": "every sequence of calls, every list of samples and buffers, every stream info with at least one channel, every seek target less than 2^62 samples away, every build profile", "why_tests_cant": "The claim is about all interleavings of recording, playing and seeking; tests exercise a few fixed sequences, mostly encode followed by decode.", "anchors": ["src/codec/wav.rs::WavCodec::encode", "src/codec/wav.rs::WavCodec::decode", "src/codec/wav.rs::WavCodec::seek", "src/codec/wav.rs::WavCodec::load"]}
{"id": "C72", "title": "The sample rate is only a label", "statement": "The sample rate given to an AdhocCodec has no influence on sound. Two codecs that differ only in the rate answer every sequence of encode, decode, init and seek calls with the same samples, counts and panics, as long as the times sought mean the same block at both rates, and their saved files differ only in the four bytes of the rate. Changing the rate with set_info at any moment equals having created the codec with it. The tool turns two WAV files that differ only in the rate into files that differ only in the four bytes of the rate. For seek times that mean different blocks the answers can differ.", "quantifier": "every pair of rates, every channel count, every level, every sequence of calls, every moment for set_info, every pair of WAV files, every build profile", "why_tests_cant": "It is a relation between pairs of runs for all rates and all call sequences; a test compares two rates on one recording.", "anchors": ["src/codec/adhoc.rs::AdhocCodec::set_info", "src/codec/adhoc.rs::AdhocCodec::encode", "src/codec/adhoc.rs::AdhocCodec::decode", "src/codec/adhoc.rs::AdhocCodec::seek", "src/main.rs::convert_wav_to_adhoc"]}
{"id": "C73", "title": "How the bytes of a file arrive does not matter, where they start does for WAV", "statement": "Loading from any reader gives what loading the whole file gives, whatever pieces the reads return and however often they are interrupted. When a read fails the result is no codec or the right one, never a wrong one. AdhocCodec::load uses exactly the bytes of one recording: recordings saved one after the other into one stream are loaded one after the other, each as from a file of its own, and what follows is left unread. A WAV file that does not start at the beginning of the stream is loaded wrongly without an error: its header is understood, but its samples are taken from a place counted from the beginning of the stream, so that there are too many of them by as many bytes as come before the file.", "quantifier": "every file contents, every sequence of read results (pieces of any size, interruptions, errors), every list of codecs in any state a program can reach, every number of bytes before a file, every build profile", "why_tests_cant": "Tests read from a Vec or a File that returns everything at once and starts at zero; the claim is about every way a reader may split, interrupt or fail.", "anchors": ["src/codec/adhoc.rs::AdhocCodec::load", "src/codec/wav.rs::WavCodec::load"]}
{"id": "C74", "title": "Saving into a resource that takes the bytes in pieces or fails", "statement": "Whatever pieces AdhocCodec::save_to writes and the resource takes, a beginning of the file arrives and success is reported exactly when all of it arrived; it fails only when a write fails, and what a failed save leaves behind never loads. WavCodec::save_to reports success exactly when the sound data arrived: what the first write does not take of the header is lost without an error, up to reporting success for an empty recording of which nothing was written, and an interrupted first write is reported as an error.", "quantifier": "every codec in any state a program can reach, every division into writes, every sequence of write results (pieces of any size, interruptions, nothing taken, errors), every build profile", "why_tests_cant": "Tests write into a Vec or a File that takes everything at once; the claim is about every way a writer may answer.", "anchors": ["src/codec/adhoc.rs::AdhocCodec::save_to", "src/codec/wav.rs::WavCodec::save_to"]}
{"id": "C75", "title": "The WAV codec's views of raw memory", "statement": "On a little-endian machine the bytes of RawWavHeader, laid out by the rules of repr(C), contain no padding and are the 44 header bytes of a WAV file, and the i16 view of the sample bytes is the little-endian reading of them. If the allocator returns even addresses, the view decode builds satisfies what slice::from_raw_parts requires, for every codec that holds a sample, whatever calls or loads led there. For a codec nothing was written to it does not: its vector has address 1 and decode builds a misaligned view. On a big-endian machine files do not travel either way, and the codec does not even play back its own samples.", "quantifier": "every WavCodec reachable by any sequence of encode, decode, seek and load calls, every choice of addresses by the allocator, every sample data and format, both byte orders, every build profile", "why_tests_cant": "A test runs on one machine with one allocator, and undefined behaviour need not show; the claim is about every address, every history and the layout rules themselves.", "anchors": ["src/codec/wav.rs::RawWavHeader::as_bytes", "src/codec/wav.rs::RawWavHeader::as_bytes_mut", "src/codec/wav.rs::WavCodec::get_pcm", "src/codec/wav.rs::WavCodec::decode", "src/codec/wav.rs::WavCodec::save_to", "src/codec/wav.rs::WavCodec::load"]}
{"id": "C76", "title": "LinkedList::iter_mut is safe and changes only the entries", "statement": "However a list has been used, the unchecked pointer arithmetic of iter_mut stays inside the list's memory and reaches each entry exactly once, so no two of the references it hands out are to the same entry; replacing every entry through it replaces the entries and changes neither their order nor their pointers, allocates nothing, and leaves a list on which every operation still behaves as on a plain sequence.", "quantifier": "every element type, every sequence of fewer than 2^32 - 1 list operations and iter_mut passes, every replacement function, every build profile", "why_tests_cant": "The code holds several mutable references derived from one raw pointer; that they never alias or leave the vector depends on an invariant of every operation history.", "anchors": ["src/collections/linked_list.rs::LinkedList::iter_mut", "src/collections/linked_list.rs::LinkedListIterator"]}
{"id": "C77", "title": "Linked lists and caches survive serialisation", "statement": "Deserialising what was serialised from a LinkedList gives the list itself, with the same entries under the same pointers; from an LruCache it gives a cache that no sequence of operations can tell from the original, in whatever order the hash table lists its entries and however often this is repeated. A torn text does not deserialise. Only texts of this format deserialise to a list (each entry with any number of child pointers); all others are errors. What the texts say is not checked: passes over the resulting list stay inside its memory or panic, but iter_mut can hand out two mutable references to the same value, and wrong numbers of child pointers are silently cut or padded with null.", "quantifier": "every element, key and value type that bincode can write and read, every history of list or cache operations of fewer than 2^32 - 1 steps (lists) or any length (caches) with any number of save and load steps in between, every order of the hash table, every cut, every build profile", "why_tests_cant": "The impls for Node are written by hand and the pointers inside must stay meaningful for all later operations; a test checks one list, and HashMap order changes from run to run.", "anchors": ["src/collections.rs::Node::serialize", "src/collections.rs::Node::deserialize", "src/collections/linked_list.rs::LinkedList", "src/collections/lru_cache.rs::LruCache"]}
{"id": "C78", "title": "The library does the same on 32-bit targets", "statement": "On a target with a usize of 32 to 64 bits and limited memory, such as wasm32, every program that uses an AdhocCodec either runs out of memory or gets exactly the replies (or the panic) it gets on a 64-bit machine with unlimited memory: the casts of positions and counts to usize never lose anything. This includes loading files saved on any other target. The same holds of every program that uses a WavCodec, with any files. It does not hold of an AdhocCodec file that no target wrote: with one wild frame position it plays on wasm32 and is silent on a 64-bit machine. And running out of memory takes an allocator that refuses: for every program there is an amount of memory with which it does not run out on any target.", "quantifier": "every usize width from 32 to 64 bits, every allocator that refuses vectors beyond isize::MAX bytes (and any others it likes), every build profile, every sequence of calls (set level, set info, encode, decode, seek, init, count, save, load) with arguments the machine can represent, every file saved by such a program, itself possibly loading such files", "why_tests_cant": "The casts truncate only at positions of gigabytes; tests run on a 64-bit host with small inputs, and no test compares two targets.", "anchors": ["src/collections/bitstream.rs::BitStream::chunk_index", "src/collections/bitvec.rs::BitVec::chunk_index", "src/codec/adhoc.rs::AdhocCodec::seek", "src/codec/adhoc.rs::AdhocCodec::encode", "src/codec/wav.rs::WavCodec::write_sample", "README.md"]}
{"id": "C79", "title": "The size estimate on 32-bit targets", "statement": "With a usize of w bits, filesize_upperbound of an AdhocCodec reports the same as on a 64-bit machine while the stream has fewer than 2^w bits (512 MiB on wasm32), which is so for every recording of at most about 2^w / 18 samples. From 2^w bits on, which every recording of at least 2^w / 3 samples reaches, a debug build panics and a release build reports at least 2^w bits less than it should.", "quantifier": "every usize width from 32 to 64 bits, every recording, level, capacity of the exponent list, build profile", "why_tests_cant": "It needs half a gigabyte of compressed audio on a 32-bit machine.", "anchors": ["src/collections/bitstream.rs::BitStream::capacity_upperbound", "src/codec/adhoc.rs::AdhocCodec::filesize_upperbound", "src/codec/adhoc/frame.rs::FrameHeaderList::calculate_weight_upperbound"]}
{"id": "C80", "title": "What becomes of silence", "statement": "A recording of zeros comes back as exact zeros at level 0 and at levels 5 to 10. At levels 1 to 4 it comes back as a faint hiss: no sample exceeds 0.00074, and the very first one is not zero. At level 0 and from level 5 on no recording of the same shape, with any content at any level, makes a file that is more than 32 bytes smaller. A higher level does not always mean a smaller file: 64 silent samples take 190 bytes at level 0 and 222 at level 1.", "quantifier": "every number of channels, every sequence of silent encode calls (zeros of either sign, any lengths, with no block hidden behind nine empty calls), every level, every build profile, every sequence of decode buffers; for the size, every other recording with the same channels and call lengths", "why_tests_cant": "Silence of any length and shape at every level is infinitely many recordings, the hiss depends on the random generator, and the size claim compares with all recordings.", "anchors": ["src/codec/adhoc.rs::AdhocCodec::encode", "src/codec/adhoc.rs::AdhocCodec::decode", "src/codec/adhoc.rs::AdhocCodec::with_compression_level", "src/math/noise.rs"]}
{"id": "C81", "title": "Changing the compression level while recording", "statement": "If with_compression_level is used between encode calls, the whole recording is decoded at the level set last: every stretch comes back exactly as that stretch of a recording made at the stretch's own level throughout, except that each sample is multiplied by 2 to the power of (last level minus the stretch's level). So the loudness of what was recorded before changes. A level with which nothing was encoded has no effect unless it is the last, and setting a level after the last encode call rescales the whole recording.", "quantifier": "every sequence of levels and encode calls whose prediction errors fit 16 bits, every number of channels, every build profile, every sequence of decode buffers", "why_tests_cant": "The tests set the level once, before encoding; the effect on each earlier sample, for all orders of level changes, cannot be enumerated.", "anchors": ["src/codec/adhoc.rs::AdhocCodec::with_compression_level", "src/codec/adhoc.rs::AdhocCodec::encode", "src/codec/adhoc.rs::AdhocCodec::decode"]}
{"id": "C82", "title": "Encoding and decoding take linear time", "statement": "README says that encoding and decoding are O(N), and they are. Encode calls take at most 284 steps for each sample, 27 for each call and channel and 1 for each call, whatever the state of the codec. Decode calls take at most 56 steps for each sample asked for and 2 for each call and, over all calls together, 9 for each sample the frame table counts, 27 for each frame, 2 for each bit in memory and 512, whatever the tables and the stream hold; so playing a recording of n samples made by k encode calls on ch channels takes at most 56 steps for each sample asked for, 2 for each call, and 45n + 27*ch*k + 96ch + 1024. A seek, wherever to, takes at most 48n + 29*ch*k + 104ch + 1029 steps in such a recording, and counting its samples 2*ch*k + 1. A step is one test of a loop, one item of an iterator or one call of a function without loops.", "quantifier": "every codec state, every list of encode slices, every codec that fits into memory (even from damaged files), every list of decode buffers, every seek target, every build profile", "why_tests_cant": "A benchmark times some inputs; that no input, such as a damaged stream with long runs of ones or a frame table out of step with the stream, takes more than linear time is a claim about all of them.", "anchors": ["README.md::Performance", "src/codec/adhoc.rs::AdhocCodec::encode", "src/codec/adhoc.rs::AdhocCodec::decode", "src/codec/adhoc.rs::AdhocCodec::seek", "src/codec/adhoc.rs::AdhocCodec::calculate_sample_count_per_channel", "src/codec/adhoc/frame.rs::FrameCodec::encode_frame", "src/codec/adhoc/frame.rs::FrameCodec::decode_frame", "src/collections/bitstream.rs::BitStream::read_compressed"]}
{"id": "C83", "title": "The number of allocations is logarithmic", "statement": "README says that there should be log(N) allocations, and there are, if a vector that must grow at least doubles its capacity, as those of the standard library do. Making a recording of n samples and F frames allocates at most 2(1 + log2 n) + 5(1 + log2 F) times (logarithms rounded up) and moves at most 4n + 10F entries; if the new capacity is at most the larger of 8, twice the old one and what is needed, the recording ends up holding at most 5n + 34F + 12ch + 8B + 456 bytes for ch channels and calls of at most B blocks. Decode calls, whatever the tables and the stream hold, whatever the buffers and the capacities to start with, allocate at most 17 times for each channel, ever, and 1 + log2 of (chunks + 4 for each sample the table counts + 12 for each frame + 5) times for the stream; for a recording that is 1 + log2(5n + 13F + 7) + 17ch. WAV encoding allocates at most 1 + log2 of the bytes it ends up with. At the end every vector has room for what it holds, so no growth is left out.", "quantifier": "every growth strategy that at least doubles, every list of encode slices of a recording, every codec that fits into memory (even from damaged files), every list of decode buffers, every WAV codec and list of slices, every starting capacity, every build profile", "why_tests_cant": "An allocation counter in a test sees some inputs and one allocator; that no input, such as a damaged table or stream, makes the codecs allocate more often or keep growing is a claim about all of them.", "anchors": ["README.md::Performance", "src/collections/bitstream.rs::BitStream::allocate_if_needed", "src/collections/nibble_list.rs::NibbleList::push", "src/collections/bitvec.rs::BitVec::push", "src/codec/adhoc/frame.rs::FrameHeaderStream::push", "src/codec/adhoc/frame.rs::FrameCodec::decode_frame", "src/codec/adhoc.rs::AdhocCodec::encode", "src/codec/adhoc.rs::AdhocCodec::decode", "src/codec/wav.rs::WavCodec::write_sample"]}
{"id": "C84", "title": "What a hostile file can make a player produce", "statement": "However its tables are forged, a .adhoc file with room for F = (bytes - 117)/16 frame entries and a claim of ch channels yields at most 65535 * ch * ceil(F/ch) samples over all decode calls, however many there are and however they are sized; that is at most 65535 (F + ch - 1). Between calls the codec never holds back more than 65535 * min(ch, F) decoded samples, and the calls take at most 56 steps for each sample of the buffers, 2 for each call and 294921 for each byte of the file. In release builds files without any compressed data reach the sample bound for every F and ch. The command line tool never writes more than 44 + 131070 (F + 1023) bytes for a file, and a file of 133 bytes makes it write 134215724. Loading a WAV file never yields more than twice its bytes.", "quantifier": "every byte string that loads, every list of decode buffers, every build profile; every frame count and channel count for the files that reach the bound", "why_tests_cant": "A fuzzer may find a file that expands a lot, but not that no file expands more; the bound is over all forged tables, streams and call sizes.", "anchors": ["src/codec/adhoc.rs::AdhocCodec::load", "src/codec/adhoc.rs::AdhocCodec::decode", "src/codec/adhoc.rs::AdhocCodec::buffer_audio", "src/codec/adhoc/frame.rs::FrameCodec::decode_frame", "src/codec/adhoc/frame.rs::FrameHeaderStream::next", "src/main.rs::convert_adhoc_to_wav", "src/codec/wav.rs::WavCodec::load"]}
{"id": "C85", "title": "Exactly which WAV files the tool converts", "statement": "For every file of bytes, the command line tool's conversion from WAV does exactly one of three things. It passes the file over without writing anything exactly if the file has fewer than 256 bytes, or no 'data' in the first 256, or a format other than 1, or neither 8 nor 16 bits per sample. A release build panics exactly if the first 'data' starts after byte 248, or the file has no channels, or 1 to 1024 channels and some samples but fewer than three blocks among the first 1024 (342 channels or more, or fewer than three blocks in all). Every other file of fewer than 2^31 samples it converts, and converts back, to a WAV file with all whole blocks (none at all for more than 1024 channels, as which a negative channel count counts). A build with overflow checks panics in addition exactly on those files where for some channel and some 1024-sample call no Rice exponent below 15 is as good as 15; on all files without three blocks, or with 0 or more than 341 channels, both builds agree.", "quantifier": "every byte string, every level, both build profiles", "why_tests_cant": "A test tries some files; that no file outside the named classes panics, is passed over or loses blocks needs all byte strings.", "anchors": ["src/main.rs:105-154", "src/codec/wav.rs:134-222", "src/codec/adhoc.rs", "src/codec/adhoc/frame.rs"]}
{"id": "C86", "title": "The documented example programs", "statement": "The compress example of the documentation (README, crate documentation, examples directory) ends without a panic in a release build exactly if ./resources/taunt.wav exists and is a file the reader accepts with channels and enough blocks; a run that panics leaves every file as it was, and one that does not changes only taunt.adhoc. Running decompress before compress panics and changes nothing. Running one after the other, in any builds, for every taunt.wav of 1 to 341 channels with at least three blocks, writes a WAV file of the same format with every whole block, each sample at most 164 steps of 32767 off, and changes no other file than the two outputs.", "quantifier": "every file system content, every WAV file within the limits, all pairs of builds", "why_tests_cant": "The examples are run on one file; the claim is about every file a reader of the documentation puts in its place.", "anchors": ["examples/compress.rs:4-32", "examples/decompress.rs:4-31", "src/lib.rs:4-80", "README.md"]}
{"id": "C87", "title": "The bytes of a StreamInfo", "statement": "In a build that lays StreamInfo out without padding, as_bytes returns eight initialised bytes, four for each number in the machine's byte order, in one of two orders. In any one build different infos have different bytes, whatever the layout. The bytes are not a file format: a build that orders the fields the other way reads rate and channels exchanged, a machine of the other byte order reads other numbers, and a layout with padding, which the language allows, would expose uninitialised memory.", "quantifier": "every info, every layout the language allows, both byte orders", "why_tests_cant": "A test sees the layout one compiler chose on one machine.", "anchors": ["src/codec.rs:28-59"]}
{"id": "C88", "title": "A codec that holds a recording is a player", "statement": "Once a recording is made, no sequence of decode calls, rewinds, seeks, level changes, sample_count and info calls can tell the codec from a simple player: a list of samples still to be played and a volume. decode plays whole blocks, as many as fit and are left, reports their number (None if there are none), and multiplies the whole buffer, the unfilled end included, by the volume; a rewind or seek(Start(0)) puts the whole recording back; seek(Start(ms)) puts the recording from block floor(rate_ms*ms) on, or panics past the end; seek(Current) and seek(End) panic; changing the level changes the volume only; the counts never change. Right after recording nothing is left to be played. A codec saved at any time and loaded is the same player, rewound. Without out-of-range prediction errors seeking is the same as dropping samples.", "quantifier": "every recording, every sequence of requests, every buffer, every build profile (seek targets whose sample number needs 65 bits only with overflow checks)", "why_tests_cant": "It is about all sequences of calls of any length on all recordings; a test runs a few sequences.", "anchors": ["src/codec/adhoc.rs:83-160", "src/codec/adhoc.rs:163-211", "src/codec/adhoc.rs:256-309", "src/codec/adhoc.rs:312-413"]}
{"id": "C89", "title": "Resampling a signal", "statement": "scale_signal(input, n, output) with a nonempty input and n >= 1 writes the same n samples in both builds whatever output held, leaves the rest of output alone, and panics if output is shorter than n. For n >= 2: samples from -1 to 1 stay finite and from -1 to 1 for all lengths; for lengths up to 2^24 every written sample is, up to 2^-22, the straight line between two neighbouring input samples read at a position off by at most one part in 2^22 from k*(len-1)/(n-1); the first sample is kept; resampling to the same length changes no value. The last sample is not always kept (two samples over 42 places), one place always gets NaN, and an empty input or n = 0 panics with overflow checks (release builds leave output alone for n = 0 and panic for an empty input).", "quantifier": "every signal, every target length, every output buffer, every build profile", "why_tests_cant": "Staying within -1..1 depends on how two roundings of the weights combine, for every pair of lengths and every fractional position; tests sample a few lengths.", "anchors": ["src/math/signal.rs:47-58"]}
{"id": "C90", "title": "The mean square error", "statement": "compute_mse of a finite nonempty signal against itself, or against itself with anything appended, is 0; it is NaN if either signal is empty or if some compared pair has difference NaN; it is never below zero; it does not matter which signal is the original. All this whatever powf(_, 2.0) returns otherwise, as long as it maps 0 to 0, NaN to NaN, opposite numbers to the same number and never to a negative one.", "quantifier": "every pair of signals of any lengths, every implementation of powf that meets the named conditions", "why_tests_cant": "Rust leaves the result of powf to the platform: a test sees one implementation and a few signals, the claim is for all of both.", "anchors": ["src/math.rs:11-17"]}
{"id": "C91", "title": "Exactly which .adhoc files the tool converts, and how long the result is", "statement": "In a release build the tool answers an .adhoc file as follows. A file that does not load is reported as an error. One with 0 channels panics (division by zero), one with more than 1024 becomes an empty WAV file of 44 bytes. Otherwise the file is converted exactly if its three per-frame lists each have an entry for every frame it claims, whatever the entries and the compressed data are; the result is then 44 bytes and two per sample, where the samples are the sum over the turns of the channels of the longest frame of the turn (at least 3 in the first turn), times the channels; decode calls of any sizes yield that same number. If an entry is missing the tool panics (index out of bounds) and writes nothing. This holds if no nine turns in a row are empty; a file with twenty empty turns before the missing entries is converted in part.", "quantifier": "every file of bytes shorter than 2^40, every sequence of decode calls", "why_tests_cant": "the files are arbitrary bytes and the answer depends on list lengths that a damaged or hostile file chooses; tests only see files written by the encoder", "anchors": ["src/main.rs::convert_adhoc_to_wav", "src/codec/adhoc.rs::AdhocCodec::load", "src/codec/adhoc.rs::AdhocCodec::decode", "src/codec/adhoc.rs::AdhocCodec::buffer_audio", "src/codec/adhoc/frame.rs::FrameHeaders::next"]}
{"id": "C92", "title": "The Gaussian filter", "statement": "gaussian_filter::<N>(sigma, r) has N taps. For N at least 2 and moderate sigma and r, every tap is a number from zero to the peak, which is 1/(sigma sqrt(2*3.141)) to one part in two million; the first and the last tap are identical; the taps rise up to some place and fall after it. This holds for any platform's powf(_, 2.0) and exp that are finite, even, monotone and of the right sign where the filter calls them. A filter of one tap is NaN whatever the parameters. The taps between the ends need not mirror each other (refuted, four taps).", "quantifier": "every N up to 2^63, every sigma from 2^-30 to 2^30, every r from 0 to 2^30, every powf and exp that meet the named conditions", "why_tests_cant": "Rust leaves powf and exp to the platform, and the filter is generic in N: a test instantiates a few lengths on one platform.", "anchors": ["src/math/signal.rs:3-14"]}
{"id": "C93", "title": "Pointers into a linked list, also after their entry is gone", "statement": "However a LinkedList was used, get(h) finds an item exactly if h is at present the pointer of an entry, and then that entry's item; writing through get_mut(h) changes that entry's item and no other, or no entry if h is stale. remove_at with a pointer that is no entry's panics if there are two or more entries; insert_at with one panics if to the left, and if to the right either panics or silently loses the item and counts one entry too many, so that iter shows the first entry twice (a case where it does is given). The public allocate makes an item reachable by get without changing the list; the public free on an entry returns its item but makes every later iter panic; freeing a removed node again corrupts the list (a case is given).", "quantifier": "every history of fewer than 2^32-1 operations with valid pointers, every pointer value, every item type, debug and release", "why_tests_cant": "Which node a stale pointer names depends on the whole history of removals; the claim is for every history and every pointer.", "anchors": ["src/collections/linked_list.rs:63-156", "src/collections.rs:24-95"]}
{"id": "C94", "title": "The layout of .adhoc files", "statement": "AdhocCodec::load in a release build yields a codec exactly for the files that consist of these parts, in this order, with anything after them: the level (4 bytes), the table of nibbles (entries of 1 byte) and their number (4), the table of flags (8) and their number (16), the tables of sizes (2), offsets (8) and histories (6), a frame position (4), the byte 1, the rate (4), the channels (4), the table of the bit stream (16), a bit position (16) and a capacity (16), where a table is a count of 8 bytes and that many entries. All other files give None, never a panic. A debug build also panics when the level is 32 or more. The codec has the rate, the channels and the level that the file says, and saving it gives the file back byte by byte except that both positions are 0; loading that copy gives the same codec again. save_to writes nothing but files of this layout.", "quantifier": "every file of bytes, whether written by the library or not, both build profiles, every codec whose values fit their types", "why_tests_cant": "The set of accepted files is infinite and is fixed by derived code that nobody wrote down; a round-trip test only visits files the library itself wrote.", "anchors": ["src/codec/adhoc.rs::AdhocCodec::save_to", "src/codec/adhoc.rs::AdhocCodec::load", "src/codec/adhoc/frame.rs::FrameHeaders", "src/codec/adhoc/audio_stream.rs::AudioStream"]}
{"id": "C95", "title": "Indexing ring buffers and circular stacks", "statement": "buffer[i] of a FixedRingBuffer is place i of the storage, not the i-th item of the queue. The items lie in a circle: in a new buffer the first item lies at place 0, push_front puts an item one place before the first, pop_front moves the first place on by one, clear moves it to 0. Reading place i gives the item that lies there, writing there changes that item and nothing else, and all answers after any mix of operations and writes are those of such a circle. Index and position agree as long as items are only pushed at the rear. An item taken out can still be read at its place. Outside the storage both panic. In a CircularStack the n-th value pushed is stack[n mod 4] until four more are pushed; writing stack[i] changes what prev gives for that value only; from 4 on the index panics, since it is not masked.", "quantifier": "every item type, storage, power-of-two capacity, sequence of operations and writes by index, index and build profile", "why_tests_cant": "Whether places and positions agree depends on how far the buffer has turned; a test that only pushes at the rear never sees the difference.", "anchors": ["src/collections/queue.rs::FixedRingBuffer::index", "src/collections/queue.rs::FixedRingBuffer::index_mut", "src/collections/stack.rs::CircularStack::index", "src/collections/stack.rs::CircularStack::index_mut"]}
{"id": "C96", "title": "Debug and release builds do the same unless an operation overflows", "statement": "Whatever a program does with any number of AdhocCodecs and WavCodecs, choosing each call by the answers so far, a debug build gets the same answers and ends in the same way as a release build, on every target, unless the debug build panics with an arithmetic overflow; up to that panic the answers are the same. So a run of a debug build that does not overflow tells what the release build does, including its panics. The same holds for the two file conversions of the tool, for its runs on many files (under every interleaving both builds leave the same files, or were in the same state when a file was converted whose conversion overflows), for reading and writing through streams, for the example programs (which then leave the same files), for ring buffers, linked lists and caches, for the bit stream codes and for resampling.", "quantifier": "all client programs, all replies, all targets (width of usize, memory), all files, all states of the collections", "why_tests_cant": "Tests run a debug build on some inputs; that every release run equals a debug run that does not overflow is a statement about all pairs of runs of two builds.", "anchors": ["src/collections/bitstream.rs", "src/codec/adhoc.rs", "src/codec/wav.rs", "src/codec/adhoc/frame.rs", "src/main.rs", "src/collections/queue.rs", "src/collections/linked_list.rs", "src/collections/lru_cache.rs"]}
{"id": "C97", "title": "How precisely a seek hits the time asked for", "statement": "A seek computes the block in single precision. It is never later than the time asked for by more than one four-millionth of that time, never earlier by more than that and one block; for rates and times below 2^24 one eight-millionth. So up to two hours and thirteen minutes a seek in a recording plays from a block at most one millisecond (and one block) away. Later times never lead to earlier blocks. From block 2^24 on (5:49 minutes at 48 kHz) every second block cannot be reached by any seek, from 2^25 on only every fourth can, and so on; from 2^24 milliseconds on different milliseconds can mean the same block. A WavCodec goes to the same blocks, and n seeks from the current position by the same time go n times as far as one, so the errors add up: 1000 seeks by 1 ms at 44.1 kHz go 44000 blocks, one seek by 1000 ms goes 44100.", "quantifier": "all sampling rates (u32), all times (u64), all recordings and playback before the seek, all numbers of steps", "why_tests_cant": "The error depends on four roundings of numbers from two huge ranges; the bound is a statement about all of them.", "anchors": ["src/codec/adhoc.rs::AdhocCodec::seek", "src/codec/wav.rs::WavCodec::seek"]}
{"id": "C98", "title": "Removed values are gone, and a cache never outgrows its capacity", "statement": "The memory of a LinkedList holds the items of its present entries and no others, each once: an item that was popped or removed is in no node any more and in no serialised text. An LruCache keeps in memory exactly the pairs that lookup finds, its hash table has exactly their keys, and its list never has more nodes than the capacity, however many keys have come and gone. The serialised text of a cache therefore has an exact size and never exceeds 36 bytes plus, for each unit of capacity, 21 bytes, two keys and a value.", "quantifier": "every history of list operations (fewer than 2^32 - 1 steps, changes through iter_mut included), every history of cache operations of any length with any number of save and load steps in between, every capacity from 1 to 2^32 - 1, every key and value type", "why_tests_cant": "A node that keeps its old value, or a table entry that outlives its node, changes no answer a test can ask for; it only shows as memory that grows or as secrets in a saved file after some particular sequence of operations.", "anchors": ["src/collections/linked_list.rs:63-148", "src/collections/lru_cache.rs:15-108", "src/collections.rs:94-107"]}
{"id": "C99", "title": "What a compression level guarantees about the size", "statement": "At level 4 and above, a recording of n samples within full scale, whatever it contains, takes at most 21 - level bits per sample (11 from level 10 on), besides 48 bits per channel, 133 per encode call and channel and 1259 for the file. For mono and stereo WAV files converted by the tool this means at most 70.4% of the WAV file's sample bytes from level 10 on, and at most 95.4% from level 6 on, 203 bytes aside: from level 6 on a long track never grows. It does not mean that a higher level gives a smaller file than a lower one: 100 samples at full scale take 206 bytes at level 0 and 222 at level 10.", "quantifier": "every stream info, level from 4 on, list of encode calls that encodes with finite samples within 1.0001, build profile; every WAV file the tool can read", "why_tests_cant": "The bound holds for the signal that is worst for the predictor and the adaptive code together with the dither noise; a test measures the signals it tries.", "anchors": ["src/codec/adhoc.rs::AdhocCodec::with_compression_level", "src/codec/adhoc.rs::AdhocCodec::encode", "src/codec/adhoc/frame.rs", "src/main.rs::main"]}
{"id": "C100", "title": "Which settings of a codec count", "statement": "An AdhocCodec that has not been used yet is determined by the last format given to with_info or set_info and the last level given to with_compression_level, in whatever order and however often these and init were called, with level 0 if none was given; it is the same codec, so it also records and plays the same. If no format was given, encode, decode and info panic. In the middle of any session a format with at least as many channels may be set and taken back without any effect. The number of channels cannot be changed between encode calls: nothing complains, but the recording then plays the earlier blocks on one channel with noise on the other, and noise in place of the later blocks.", "quantifier": "every sequence of configuration calls, format, level, session of encode, decode, init and seek calls, and build profile", "why_tests_cant": "The configuration calls resize a list of channel states in place and can come in any order and number; tests fix one order.", "anchors": ["src/codec/adhoc.rs::AdhocCodec::new", "src/codec/adhoc.rs::AdhocCodec::with_info", "src/codec/adhoc.rs::AdhocCodec::set_info", "src/codec/adhoc.rs::AdhocCodec::with_compression_level", "src/codec/adhoc.rs::AdhocCodec::init"]}
{"id": "C101", "title": "Recording a signal with its polarity inverted", "statement": "At level 0 inverting the polarity of a signal (negating every sample, in every channel) inverts what is played and nothing else: as long as no prediction error exceeds 32766, every sample played is exactly minus the sample played otherwise, whatever buffers are used. For any signal at all, a build that can encode the recording can encode the inverted one, and the two files differ in size by at most 32 bytes. At higher levels the sound is not exactly inverted, since the same dither is added to both; and for prediction errors of 32767 it is not at level 0 either, since errors are limited to -32767..32766.", "quantifier": "every recording (any sample values, channels, cutting into encode calls), decode buffers and build profile", "why_tests_cant": "The claim compares two whole runs of floating-point prediction, rounding and entropy coding; it holds only because every single operation is symmetric, and fails for a single asymmetric limit, which tests on ordinary signals never reach.", "anchors": ["src/codec.rs::truncate_sample", "src/codec.rs::normalize_sample", "src/math/parabola.rs::FixedParabola::compute_coefs", "src/codec/adhoc/frame.rs::FrameCodec::encode_frame", "src/codec/adhoc/frame.rs::FrameCodec::compute_optimal_divisor_exponent"]}
