# Formal model of K-C-DaCosta/adhoc_audio in Rocq (Coq 8.16.1)

`properties.jsonl` states the properties in English, `MANIFEST.json` names the theorems proved for each,
`seeded/LOG.jsonl` records the wrong programs the theorems were tried against.

## Layout of `rocq/theories`

| Directory | Contents |
|---|---|
| `Model/` | the code, one file per Rust source file; every definition cites the lines it models |
| `Spec/` | small definitions the theorem statements use (lists, bits, deques, recency lists, WAV bytes, ...) |
| `Proofs/` | lemmas: refinement, invariants, rounding analysis |
| `Properties/` | the theorems `C##_...`, each followed by `Print Assumptions` and a concrete case meeting its hypotheses |

## How the code is modelled

* `Model/Base.v`: a computation is `Ok a`, `Panic reason` or `OutOfFuel`. Loops without a structural bound run on
  fuel; every theorem that claims a result shows it is `Ok`, so fuel never hides non-termination. Machine integers are
  `Z` with explicit wraps (`uwrap`, `swrap`); an operator that can overflow takes the build `profile`: `Debug`
  (overflow checks, panics) or `Release` (wraps). Theorems quantify over the profile unless they say otherwise. C96 compares the two builds.
  `usize` is 64 bits and memory unlimited, except in `Model/Narrow.v`, which repeats the two codecs with a `usize` of `w` bits
  (32 to 64) and an allocator that may refuse any vector and must refuse those beyond `isize::MAX` bytes. `Model/Steps.v` repeats the adhoc codec with a counter of steps (C82); `Model/Allocs.v` repeats both codecs with a log of the lengths their vectors ask for, and `Spec/Allocation.v` says what a growing allocator makes of it (C83).
* `Model/F32.v`: `f32` is Flocq's `binary_float 24 128` with one NaN; `+ - * /` are correctly rounded (nearest even);
  `as` casts saturate and send NaN to 0; `clamp` as in std.
* A file is the list of its bytes. A resource given to `load` delivers all its bytes; one given to `AdhocCodec::save_to`
  takes all bytes; for `WavCodec::save_to` the first `write` may take fewer (C55).

### Modelled

| Source | Model | Left out |
|---|---|---|
| `src/collections/bitstream.rs` 1-373 | `BitStream.v` | the reservation of `with_capacity_in_megabytes` |
| `src/collections/bitvec.rs` 1-117 | `BitVec.v` | - |
| `src/collections/nibble_list.rs` 1-67 | `NibbleList.v` | `capacity` (the allocator's choice; a parameter of the size estimate) |
| `src/collections/stack.rs` 1-55 | `CircularStack.v`; `Index`/`IndexMut` in `RawIndex.v` | - |
| `src/collections/queue.rs` 1-103 | `RingBuffer.v`; `Index`/`IndexMut` in `RawIndex.v` | - |
| `src/collections.rs`, `src/collections/linked_list.rs` | `LinkedList.v`; `CollectionsBincode.v` (serde impls, as bincode uses them); `iter_mut` is in `Layout.v`, `get`/`get_mut` in `ListHandles.v` | `visit_map` (never called by bincode) |
| `src/collections/lru_cache.rs` | `LruCache.v` | the hash function: `HashMap` is a finite map |
| `src/math/noise.rs` 1-42 | `Noise.v` | the histogram printer |
| `src/math/parabola.rs` | `Parabola.v` | - |
| `src/math/signal.rs` 1-58, `src/math.rs` 11-17 | `Signal.v`, `Resample.v` (`scale_signal`; `compute_mse` with the result of `powf` a parameter), `Gaussian.v` (`gaussian_filter`, with `powf` and `exp` parameters) | - |
| `src/codec.rs` | `Sample.v`; `InfoBytes.v` (`StreamInfo::as_bytes`) | - |
| `examples/compress.rs`, `examples/decompress.rs` (also README.md, `src/lib.rs` 4-80) | `Examples.v` | printing; failing to create the output |
| `src/codec/adhoc/frame.rs`, `audio_stream.rs` | `Frame.v` | `max_entropy` (never read), the unused return values |
| `src/codec/adhoc.rs` | `Adhoc.v` | the scratch buffer `deinterleaved_channel` (overwritten before each use) |
| bincode 1.3.3 default format of the serialised types | `Bincode.v` | error kinds (any error is `None`), memory exhaustion on absurd lengths |
| `src/codec/wav.rs` | `Wav.v`; `Layout.v` (what the `unsafe` blocks see: struct layout, byte order, alignment) | the `Debug` printer |
| `std::io` readers and writers as the two codecs call them | `Resource.v` (one `read`, `write` or `seek` call at a time) | buffering inside the resource |
| `src/main.rs` 62-154 | `Cli.v` (conversions), `CliFiles.v` (names, files, parallel run), `CliArgs.v` (level option, directory test), `CliIO.v` (files that paths lead to, reading and writing in pieces, failing writes) | `clap` itself (finding options among the arguments); read errors other than at opening |

### Not modelled, so not covered by any theorem

The aliasing model (Stacked Borrows) of `iter_mut`'s two live references to the list, stack use, seconds (C82 counts loop iterations and calls of functions without loops, and takes `Vec::push`, `VecDeque::push_back` and `pop_front` for one step each), `clap`, `rayon`'s scheduler (C58 quantifies over all interleavings instead),
and tests. Big-endian targets are covered only by C75 and C87; 32-bit targets and allocation failure only by C78 and C79 (the collections
the codecs do not use are not in `Narrow.v`, and neither are the resources: a file is still the list of its bytes).

## Trusted base

* Coq 8.16.1's kernel (including its VM, used for concrete computations; `coqchk` re-checks everything without it).
* The model says what the Rust code does: checked by reading only, nothing was compiled or run.
* Flocq 4.1.0's definitions of IEEE 754 arithmetic as the meaning of Rust's `f32` operators.
* The bincode 1.3.3 format as described in `Bincode.v`, std's documented behaviour (`Vec`, `VecDeque`, `HashMap`,
  `f32::clamp`, `as` casts, `Path`).
* No axioms are declared here. `Print Assumptions` lists, for the theorems marked R below, exactly these axioms of the
  standard library (they enter with Coq's real numbers, which Flocq's correctness lemmas are about):
  `ClassicalDedekindReals.sig_forall_dec`, `ClassicalDedekindReals.sig_not_dec`,
  `FunctionalExtensionality.functional_extensionality_dep`, `Classical_Prop.classic`.
  Theorems marked 0 are closed under the global context. (`coqchk` also reports, for the loaded libraries as a whole,
  the opaque module fields `Rdefinitions.RbaseSymbolsImpl.*`, `Rdefinitions.RinvImpl.*` and `ssrunder.Under_rel.*`.)

## What the proofs found

Defects in the code, each with a theorem (usually a general law and a `_refuted` witness):

* Level 0 is not lossless: residuals are clamped to 16 bits, then encoder and decoder predict from different histories
  (C10); one click can turn all following silence into a full-scale tone (C54). Levels 4 and up are immune (C11).
* Debug builds panic on some in-range signals (C32); the exact condition is proved.
* Encode calls of 65536 samples per channel or more lose 65536 samples (C26); nine empty calls hide the rest of the
  recording (C29); partial blocks are dropped yet reported (C27); a short first call panics (C28).
* Re-using a codec, as the documentation suggests, keeps old frames and can damage new samples (C21, C05).
* Seeking past the end panics, and can wrap (C19); seek from the end of a WAV is seek from its start (C48); seeking an
  empty WAV panics (C48); seeking past the end of a WAV lands on the last sample, in the middle of a block (C48).
* The size "upper bound" of `AdhocCodec` is not one (C24); decode rescales the unreported tail of the buffer (C30).
* WAV: files with under 212 bytes of samples cannot be loaded again (C43), one length is misread (C43), trailing chunks become
  sound (C46), a late data tag panics (C45), 8-bit silence is not silent (C47), short writes lose header bytes (C55).
* `load` accepts damaged .adhoc files whose decoding panics (C51, C59); damaged data can panic a debug build (C59); a seek to
  the first block of a call decodes from the call before it (C61).
* The command line tool panics on files under three blocks and on 342 to 1024 channels, and drops all samples of wider
  files (C50).
* The tool cuts file names at an inner dot, so several inputs can share one output, and converting back in place
  replaces the original (C57); a panic while saving leaves an emptied output (C58).
* A 117-byte file can make `load` allocate 2^32 - 1 channel states (C65).
* A 133-byte .adhoc file makes the tool write a WAV file of 134 MB; nothing makes it write more than 8.2 KB per byte plus 134 MB (C84).
* A .adhoc file that claims more frames than its lists hold makes the tool panic (C91).
* The same stereo signal cut differently into encode calls decodes differently at levels above 0 (C63).
* `WavCodec::decode` before anything was written builds a misaligned slice, which `from_raw_parts` forbids; on a big-endian
  machine the WAV codec does not play back its own samples (C75).
* Deserialising a linked list checks nothing, so `iter_mut` can alias on data from elsewhere (C77).
* The dither noise repeats every 126990 samples, 2.6 s of one channel at 48 kHz (C34).
* Silence hisses at levels 1 to 4, and takes more room there than at level 0 (C80).
* Setting another level in the middle of a recording changes the loudness of what was recorded before (C81).
* On wasm32 `filesize_upperbound` panics or wraps from 512 MiB of stream on (C79), and a file with a wild frame position plays differently
  there than on a 64-bit machine (C78; not a file some codec saved).
* `NibbleList` pushes after `clear` see stale bits (C36); `CircularStack::is_empty` means full (C38).

## Properties and theorems

How each was proved: C01-C05 and C53 by abstraction of the chunk vector to a function from positions to bits, with the invariant
"zero beyond the cursor's chunk", by induction over operation lists. C06-C09, C20, C25-C32 by a refinement between the
encoded stream and the concatenation of the frames' code words, and between the decoder and a queue of samples, by
induction over calls and frames. C10-C14, C33, C34, C49, C56 by Flocq rounding analysis (C49 and the 8-bit table by checking
all 65536, or 256, values in the kernel: these are complete enumerations of a finite type, not samples). C15-C17 from the arg-min fold and code lengths.
C18, C19 by an invariant of the frame walk. C22-C24, C51 by a serializer/parser correspondence. C35-C41 by refinement to
lists under every operation sequence. C42-C48, C55 by refinement of the byte vector to a track. C50 by composing these.
C52 pointwise. C57 by computation on names split at their last dot; C58 by an invariant of the interleaving (each job
is some number of steps into its solo run), preserved by every step of every job. C59-C61 by running two decoders in lockstep,
one on the undamaged data: they agree on all counts and cursors' bounds always, and on samples while both read equal bits. C62, C63 from the round-trip
law: predictor and dither draws of a block are shown to depend on the channel's own past and on the call lengths only.
C64 by a measure on codec states (bits and frames still unread plus samples buffered) that every round of every loop lowers, or that bounds the
unary codes left before the zero bits past the end. C65 by counting the bytes the parser consumes. C65 counts elements; spare vector capacity is not modelled. C66 by lower and upper bounds on
the bits of a frame plus the exact size of the tables. C67 by composing C18, C20 and C22. C68 by induction over the rounds; at level 0
requantisation is idempotent (exhaustive case analysis done once for C48/C50) and the result is readable again. C69 by an exact
characterisation of `u32::from_str` plus extensionality of runs in the level. C70 by an invariant of every task kept by every operation, and a frame
lemma for the operations of other tasks. C71 by refinement to a tape recorder (Spec/Tape.v), by induction over the calls. C72 by a
map that relabels the codec and commutes with every call. C73 by a simulation between parsing a list of bytes and reading call by call from a
scripted resource, combinator by combinator; C74 by induction over the script of write calls. C75 by computing the layout of the
struct symbolically and an invariant on where the vector lives; C76 by the representation invariant of C40, kept by each write through a pointer. C77 by an invariant
that every number in a list is a u32 (so that it is written without loss), and C41's invariant for the reloaded table.
C78 by a lockstep of the two models under an invariant (every cursor points into its vector, every vector is at most `isize::MAX` bytes), in which each step either
exhausts the memory or agrees; the invariant survives saving, and loading on another target, by C22's parser correspondence and induction over how a file came about; that some memory is enough, by a continuity argument: a run that ends depends on the
allocator's answers to finitely many requests, whatever the width. C79 from C66's bounds. C34's period from affine powers of the generator, and from the gcd of two periods being a period.
C80 by bounding the dither alone and from C66's lower bound on frames. C81 by replacing the quantised samples of all stretches with those of a recording made at level 0, so that C06 applies, and exactness of
multiplication by powers of two.
C82 by amortised bounds: the work still to do is at most the ones left in the memory plus nine times the samples left in the table, and every decoded frame pays with what it takes from both; that counting changes nothing by erasing the counter.
C83 by proving that the logged lengths are a list of requests each of which a doubling vector serves with logarithmically many allocations, and by C82's bound on how far a decoder can read.
C84 by a potential: the longest buffer plus 65535 for every turn of the channels at the rest of the frame table; every block handed out lowers it by one, and for a table of full frames exactly so.
C85 by cases on the header bytes, C32's exact condition for debug builds, and uniqueness of the cutting into calls; C86 by showing the examples equal the tool's conversions; C87 by computing with the two layouts that have no padding, and bytewise for all layouts.
C88 by a simulation between the codec and a tape with a volume knob, one request at a time, from the exact decoding and seeking of recordings (C06, C18) and the reloaded codec of C22.
C89 by the error of each rounding; the range from the weights summing to at most 1 + 2^-25, which is nearer to 1 than to the next f32. C90 by induction over the pairs, from the exact sign of each f32 operation.
C91 by replacing the table by one that claims only the frames with entries: up to there the two behave alike; the blocks left are the longest buffer plus the longest frame of every turn to come, an exact count.
C99 by bounding every quantised sample at a level, hence every prediction error, hence the cost at one exponent, which the chosen exponent does not exceed.
C100 by an invariant of configured but unused codecs; the rest by the lengths that set_info gives the channel list.
C101 because every f32 operation used, rounding to nearest included, commutes with negation up to the sign of zeros, so that the predictions and the costs do; the sound then from C06.

| Property | Status | Theorems (0: no axioms, R: the four listed above) |
|---|---|---|
| C01 Bit stream is a faithful append log | proved | `C01_bitstream_append_log` 0 |
| C02 Entropy code round trip | proved | `C02_entropy_roundtrip` 0, `C02_checked_exponent_15` 0 |
| C03 Entropy code is the documented Golomb-Rice code and is prefix free | proved | `C03_code_shape` 0, `C03_prefix_free` 0, `C03_prefix_free_stream` 0 |
| C04 Capped entropy code round trip | proved | `C04_capped_roundtrip` 0 |
| C05 Rewriting over old stream contents is not safe | proved | `C05_overwrite_law` 0, `C05_exact_when_clear_ahead` 0, `C05_reuse_refuted` 0 |
| C06 Codec round trip is exact on the quantised signal | proved | `C06_round_trip` R, `C06_round_trip_smooth` R |
| C07 Decode is independent of the output buffer schedule | proved | `C07_schedule_independent` R, `C07_enough_room` R |
| C08 Decode reports whole blocks and never over-reports | proved | `C08_whole_blocks` R |
| C09 Sample framing survives any input | proved | `C09_framing` R |
| C10 Level 0 is not lossless for every in-range signal | proved | `C10_exact_if_unclamped` R, `C10_lossless_refuted` R |
| C11 Bounded loss at level 4 and above, unconditionally | proved | `C11_level3_refuted` R, `C11_bounded_loss` R, `C11_bounded_loss_low_levels` R, `C11_loss_by_loudness` R |
| C12 Quantisation error at level 0 | proved | `C12_quantisation` R |
| C13 Quiet signals are lossless at level 0 | proved | `C13_quiet_lossless` R |
| C14 Prediction is the quadratic extrapolation to within one step | proved | `C14_prediction` R |
| C15 Chosen parameter is optimal | proved | `C15_optimal_exponent` R |
| C16 Worst-case expansion | proved | `C16_expansion` R, `C16_total` R |
| C17 Polynomial signals compress to three bits per sample | proved | `C17_quadratic` R |
| C18 Seek lands on the right sample | proved | `C18_seek_any` R, `C18_seek` R, `C18_target_exact` R, `C18_target_close` R |
| C19 Seek beyond the end panics | proved | `C19_past_end` R, `C19_wraps_refuted` R |
| C20 Rewind and replay | proved | `C20_replay` R, `C20_after_playback` R |
| C21 Reusing an AdhocCodec for a second recording is broken | proved | `C21_stale_frames` R, `C21_corruption_refuted` R, `C21_stale_refuted` R |
| C22 Saved files load back | proved | `C22_load_after_save` R, `C22_file_round_trip` R |
| C23 A torn file never loads | proved | `C23_torn_file` R, `C23_trailing_bytes` R, `C23_sessions` R |
| C24 filesize_upperbound of AdhocCodec is not an upper bound | proved | `C24_estimate` R |
| C25 Sample count | proved | `C25_sample_count` R |
| C26 Oversized encode calls lose samples | proved | `C26_stored_length` R, `C26_accepted` R, `C26_samples_lost` R |
| C27 Partial blocks are dropped although reported | proved | `C27_partial_blocks` R, `C27_wav` R |
| C28 Short first call panics | proved | `C28_short_first_call` R, `C28_later_calls` R |
| C29 Nine empty encode calls hide the rest | proved | `C29_gap` R, `C29_short_gaps` 0, `C29_long_gap` 0 |
| C30 Decode rescales the unreported tail of the buffer | proved | `C30_tail` R, `C30_tail_level0` R |
| C31 Encode/decode mode discipline | proved | `C31_decode_after_encode` R, `C31_no_output_while_encoding` R, `C31_encode_after_decode` R |
| C32 Debug builds panic on extreme signals | proved | `C32_debug_accepts` R, `C32_half_scale_safe` R, `C32_square_refuted` R |
| C33 Compression level handling | proved | `C33_load_level` R, `C33_level` R |
| C34 Dither noise | proved | `C34_triangle` R, `C34_uniform` R, `C34_period` R |
| C35 Frame header list refines a list of headers | proved | `C35_headers_refine_list` 0, `C35_wide_exponent_refuted` 0 |
| C36 NibbleList refines a list of nibbles | proved | `C36_nibble_list_refines_list` 0, `C36_push_after_clear_refuted` 0, `C36_push_after_clear_law` 0, `C36_wide_value_refuted` 0 |
| C37 BitVec refines a list of bits | proved | `C37_bitvec_refines_list` 0 |
| C38 CircularStack remembers the last four | proved | `C38_circular_stack_refines_bounded_stack` 0, `C38_prev_is_kth_last` 0, `C38_is_empty_refuted` 0 |
| C39 FixedRingBuffer refines a bounded deque | proved | `C39_deque` 0, `C39_capacity` 0 |
| C40 LinkedList refines a sequence | proved | `C40_sequence` 0, `C40_spec_determined` 0, `C40_remove_single` 0, `C40_insert_null` 0 |
| C41 LruCache is a least-recently-used cache | proved | `C41_recency` 0, `C41_spec_bounded` 0, `C41_zero_capacity` 0 |
| C42 WAV encode/decode round trip | proved | `C42_round_trip` R, `C42_everything_back` R, `C42_overwrite` R |
| C43 WAV save/load round trip | proved | `C43_file` 0, `C43_load_after_save` R, `C43_short` R, `C43_unlucky` R, `C43_play` R, `C43_wide_panics` 0 |
| C44 WAV file size | proved | `C44_size` 0 |
| C45 WAV load panics on a late data tag | proved | `C45_panics_iff` R, `C45_otherwise` R |
| C46 WAV chunks after the data chunk become samples | proved | `C46_pcm` R, `C46_trailing` R, `C46_size_ignored` R |
| C47 8-bit WAV expansion | proved | `C47_expansion` R, `C47_monotone` 0, `C47_ends` 0, `C47_silence_refuted` 0, `C47_play` R |
| C48 WAV seek | proved | `C48_start` R, `C48_current` R, `C48_same_block` R, `C48_end_is_start` R, `C48_empty_panics` R, `C48_play_from` R, `C48_past_end` R, `C48_there_and_back` R |
| C49 PCM to float and back | proved | `C49_pcm_float` R, `C49_changed` R |
| C50 CLI conversion end to end | proved | `C50_level0` R, `C50_quiet` R, `C50_lossy_levels` R, `C50_by_loudness` R, `C50_default` R, `C50_panics` R, `C50_wide_lost` R, `C50_release` R, `C50_every_file` R |
| C51 Corrupt .adhoc files can panic the decoder | proved | `C51_zero_channels` R, `C51_missing_sizes` R |
| C52 Convolution variants agree | proved | `C52_convolve` R, `C52_variants_agree` R |
| C53 Zeroing makes a bit stream reusable | proved | `C53_zero_makes_reuse_safe` 0 |
| C54 One click makes the following silence a full-scale tone | proved | `C54_click_rings_forever` R |
| C55 WAV save_to loses header bytes on a short write | proved | `C55_header_lost` 0 |
| C56 Copying 16-bit audio through f32 | proved | `C56_copy` R, `C56_exact_refuted` R |
| C57 Which file a conversion writes | proved | `C57_plain` 0, `C57_dots` 0, `C57_two_dots` 0, `C57_hidden` 0, `C57_last_one_stays` R, `C57_original_replaced` R, `C57_ignored` R, `C57_exactly` 0 |
| C58 Converting many files in parallel is independent of the schedule | proved | `C58_batch` R, `C58_completes` R, `C58_wav` R, `C58_adhoc` R, `C58_panic_truncates` R |
| C59 Damaged recordings play on | proved | `C59_any_file_plays` R, `C59_damaged_data_plays` R, `C59_debug_refuted` R, `C59_short_table_refuted` R |
| C60 Damage does not reach back | proved | `C60_prefix_intact` R, `C60_forward_refuted` R |
| C61 A seek past the damage recovers | proved | `C61_seek_recovers` R, `C61_boundary_refuted` R |
| C62 No crosstalk and no look-ahead | proved | `C62_own_past` R |
| C63 When the cutting into encode calls matters | proved | `C63_level0` R, `C63_mono` R, `C63_stereo_refuted` R |
| C64 No call and no input file makes the library or the tool hang | proved | `C64_codec_calls_end` R, `C64_wav_calls_end` R, `C64_tool_ends` R |
| C65 What loading a file allocates | proved | `C65_tables_bounded` R, `C65_channels_refuted` R |
| C66 How large saved files are | proved | `C66_saved_size` R, `C66_tool_size` R, `C66_tool_percent` R |
| C67 Saving while a recording is being played | proved | `C67_save_while_playing` R |
| C68 Converting the result of a conversion again | proved | `C68_level0_settles` R, `C68_generations` R, `C68_lossy_settles_refuted` R |
| C69 The compression level option | proved | `C69_number` R, `C69_anything_else` R, `C69_no_directory` R, `C69_monotone_refuted` 0 |
| C70 A run of the tool that is interrupted, or whose writes fail | proved | `C70_any_moment` R, `C70_finished` R, `C70_can_finish` R, `C70_clash_mixes` R |
| C71 A WavCodec is a tape recorder | proved | `C71_tape` R, `C71_last_recorded` R, `C71_odd_byte` R |
| C72 The sample rate is only a label | proved | `C72_only_a_label` R, `C72_set_any_time` R, `C72_tool` R, `C72_seeks_refuted` R |
| C73 How the bytes of a file arrive does not matter, where they start does for WAV | proved | `C73_any_pieces` R, `C73_read_errors` R, `C73_one_after_another` R, `C73_wav_pieces` R, `C73_wav_offset` R |
| C74 Saving into a resource that takes the bytes in pieces or fails | proved | `C74_save` 0, `C74_failed_save` R, `C74_wav` 0, `C74_wav_success_refuted` 0 |
| C75 The WAV codec's views of raw memory | proved | `C75_little_endian` R, `C75_view_allowed` R, `C75_empty_refuted` R, `C75_files_dont_travel` R, `C75_big_endian_refuted` R |
| C76 LinkedList::iter_mut is safe and changes only the entries | proved | `C76_iter_mut` 0, `C76_still_a_sequence` 0 |
| C77 Linked lists and caches survive serialisation | proved | `C77_list` 0, `C77_passes_stay_inside` 0, `C77_aliasing_refuted` 0, `C77_children` 0, `C77_accepted` 0, `C77_cache` 0 |
| C78 The library does the same on 32-bit targets | proved | `C78_same_everywhere` R, `C78_two_targets` R, `C78_wav_same_everywhere` R, `C78_enough_memory` R, `C78_wav_enough_memory` R, `C78_any_file_refuted` R |
| C79 The size estimate on 32-bit targets | proved | `C79_short_recordings` R, `C79_long_recordings` R |
| C80 What becomes of silence | proved | `C80_silence` R, `C80_smallest_file` R, `C80_higher_level_smaller_refuted` R |
| C81 Changing the compression level while recording | proved | `C81_level_changes` R, `C81_last_setting_counts` R, `C81_level_afterwards` R, `C81_keeps_loudness_refuted` R |
| C82 Encoding and decoding take linear time | proved | `C82_same_calls` R, `C82_encode` R, `C82_decode` R, `C82_playback` R, `C82_count` 0, `C82_seek` R, `C82_seek_recording` R |
| C83 The number of allocations is logarithmic | proved | `C83_same_calls` R, `C83_room_decode` R, `C83_room_encode` R, `C83_room_wav` R, `C83_encode` R, `C83_memory` R, `C83_decode` R, `C83_playback` R, `C83_wav` R |
| C84 What a hostile file can make a player produce | proved | `C84_samples` R, `C84_linear` R, `C84_held` R, `C84_steps` R, `C84_reached` R, `C84_tool` R, `C84_tool_reached` R, `C84_tool_example` R, `C84_wav` R |
| C85 Exactly which WAV files the tool converts | proved | `C85_rejects` R, `C85_converts` R, `C85_panics` R, `C85_release_panics` R, `C85_debug_panics` R, `C85_builds_agree` R |
| C86 The documented example programs | proved | `C86_compress` R, `C86_order` R, `C86_both` R |
| C87 The bytes of a StreamInfo | proved | `C87_bytes` 0, `C87_injective` 0, `C87_portable_refuted` 0 |
| C88 A codec that holds a recording is a player | proved | `C88_player` R, `C88_saved` R, `C88_tape` R |
| C89 Resampling a signal | proved | `C89_fills` R, `C89_range` R, `C89_interpolates` R, `C89_first` R, `C89_same_length` R, `C89_one_place_refuted` R, `C89_empty` R, `C89_last_refuted` R |
| C90 The mean square error | proved | `C90_self` R, `C90_empty` R, `C90_nan` R, `C90_not_negative` R, `C90_symmetric` R |
| C91 Exactly which .adhoc files the tool converts, and how long the result is | proved | `C91_not_loaded` R, `C91_no_channels` R, `C91_too_many_channels` R, `C91_converts` R, `C91_breaks` R, `C91_exactly` R, `C91_player` R, `C91_gap_refuted` R |
| C92 The Gaussian filter | proved | `C92_length` R, `C92_bell` R, `C92_one_tap` R, `C92_peak` R, `C92_mirror_refuted` R |
| C93 Pointers into a linked list, also after their entry is gone | proved | `C93_get` 0, `C93_set` 0, `C93_remove_stale` 0, `C93_insert_stale` 0, `C93_allocate` 0, `C93_free_entry` 0, `C93_lost_item_refuted` 0, `C93_double_free_refuted` 0 |
| C94 The layout of .adhoc files | proved | `C94_loads` R, `C94_rejects` R, `C94_debug` R, `C94_loaded` R, `C94_copy` R, `C94_saved` 0 |
| C95 Indexing ring buffers and circular stacks | proved | `C95_ring` 0, `C95_ring_filled` 0, `C95_ring_outside` 0, `C95_ring_taken` 0, `C95_stack` 0, `C95_stack_write` 0, `C95_stack_outside` 0 |
| C96 Debug and release builds do the same unless an operation overflows | proved | `C96_program` R, `C96_targets` R, `C96_conversions` R, `C96_batch` R, `C96_streams` R, `C96_examples` R, `C96_ring` 0, `C96_list` 0, `C96_cache` 0, `C96_tools` R |
| C97 How precisely a seek hits the time asked for | proved | `C97_error` R, `C97_usual` R, `C97_monotone` R, `C97_grid` R, `C97_same_time` R, `C97_seek` R, `C97_wav` R |
| C98 Removed values are gone, and a cache never outgrows its capacity | proved | `C98_list` 0, `C98_cache` 0, `C98_cache_any` 0, `C98_text` 0 |
| C99 What a compression level guarantees about the size | proved | `C99_saved_size` R, `C99_tool_size` R, `C99_tool_percent` R, `C99_highest_level_refuted` R |
| C100 Which settings of a codec count | proved | `C100_last_settings_count` R, `C100_no_format` R, `C100_more_channels_and_back` R, `C100_channels_midway_refuted` R |
| C101 Recording a signal with its polarity inverted | proved | `C101_same_size` R, `C101_inverted_sound` R, `C101_higher_levels_refuted` R, `C101_any_signal_refuted` R |
