{
 "claims": [
  {
   "property": "C01",
   "status": "proved",
   "theorems": [
    "C01_bitstream_append_log"
   ],
   "note": "in Properties/BitStreamProps.v"
  },
  {
   "property": "C02",
   "status": "proved",
   "theorems": [
    "C02_entropy_roundtrip",
    "C02_checked_exponent_15"
   ],
   "note": "in Properties/BitStreamProps.v"
  },
  {
   "property": "C03",
   "status": "proved",
   "theorems": [
    "C03_code_shape",
    "C03_prefix_free",
    "C03_prefix_free_stream"
   ],
   "note": "in Properties/BitStreamProps.v"
  },
  {
   "property": "C04",
   "status": "proved",
   "theorems": [
    "C04_capped_roundtrip"
   ],
   "note": "in Properties/BitStreamProps.v"
  },
  {
   "property": "C05",
   "status": "proved",
   "theorems": [
    "C05_overwrite_law",
    "C05_exact_when_clear_ahead",
    "C05_reuse_refuted"
   ],
   "note": "in Properties/BitStreamProps.v"
  },
  {
   "property": "C06",
   "status": "proved",
   "theorems": [
    "C06_round_trip",
    "C06_round_trip_smooth"
   ],
   "note": "in Properties/RoundTripProps.v"
  },
  {
   "property": "C07",
   "status": "proved",
   "theorems": [
    "C07_schedule_independent",
    "C07_enough_room"
   ],
   "note": "in Properties/RoundTripProps.v"
  },
  {
   "property": "C08",
   "status": "proved",
   "theorems": [
    "C08_whole_blocks"
   ],
   "note": "in Properties/CallProps.v"
  },
  {
   "property": "C09",
   "status": "proved",
   "theorems": [
    "C09_framing"
   ],
   "note": "in Properties/RoundTripProps.v"
  },
  {
   "property": "C10",
   "status": "proved",
   "theorems": [
    "C10_exact_if_unclamped",
    "C10_lossless_refuted"
   ],
   "note": "in Properties/SampleProps.v"
  },
  {
   "property": "C11",
   "status": "proved",
   "theorems": [
    "C11_level3_refuted",
    "C11_bounded_loss",
    "C11_bounded_loss_low_levels",
    "C11_loss_by_loudness"
   ],
   "note": "in Properties/LoudnessProps.v, Properties/SampleProps.v"
  },
  {
   "property": "C12",
   "status": "proved",
   "theorems": [
    "C12_quantisation"
   ],
   "note": "in Properties/SampleProps.v"
  },
  {
   "property": "C13",
   "status": "proved",
   "theorems": [
    "C13_quiet_lossless"
   ],
   "note": "in Properties/SampleProps.v"
  },
  {
   "property": "C14",
   "status": "proved",
   "theorems": [
    "C14_prediction"
   ],
   "note": "in Properties/SampleProps.v"
  },
  {
   "property": "C15",
   "status": "proved",
   "theorems": [
    "C15_optimal_exponent"
   ],
   "note": "in Properties/FrameProps.v"
  },
  {
   "property": "C16",
   "status": "proved",
   "theorems": [
    "C16_expansion",
    "C16_total"
   ],
   "note": "in Properties/FrameProps.v"
  },
  {
   "property": "C17",
   "status": "proved",
   "theorems": [
    "C17_quadratic"
   ],
   "note": "in Properties/FrameProps.v"
  },
  {
   "property": "C18",
   "status": "proved",
   "theorems": [
    "C18_seek_any",
    "C18_seek",
    "C18_target_exact",
    "C18_target_close"
   ],
   "note": "in Properties/SeekProps.v"
  },
  {
   "property": "C19",
   "status": "proved",
   "theorems": [
    "C19_past_end",
    "C19_wraps_refuted"
   ],
   "note": "in Properties/SeekProps.v"
  },
  {
   "property": "C20",
   "status": "proved",
   "theorems": [
    "C20_replay",
    "C20_after_playback"
   ],
   "note": "in Properties/RoundTripProps.v, Properties/SeekProps.v"
  },
  {
   "property": "C21",
   "status": "proved",
   "theorems": [
    "C21_stale_frames",
    "C21_corruption_refuted",
    "C21_stale_refuted"
   ],
   "note": "in Properties/LimitProps.v"
  },
  {
   "property": "C22",
   "status": "proved",
   "theorems": [
    "C22_load_after_save",
    "C22_file_round_trip"
   ],
   "note": "in Properties/FileProps.v"
  },
  {
   "property": "C23",
   "status": "proved",
   "theorems": [
    "C23_torn_file",
    "C23_trailing_bytes",
    "C23_sessions"
   ],
   "note": "in Properties/FileProps.v"
  },
  {
   "property": "C24",
   "status": "proved",
   "theorems": [
    "C24_estimate"
   ],
   "note": "in Properties/FileProps.v"
  },
  {
   "property": "C25",
   "status": "proved",
   "theorems": [
    "C25_sample_count"
   ],
   "note": "in Properties/FrameProps.v"
  },
  {
   "property": "C26",
   "status": "proved",
   "theorems": [
    "C26_stored_length",
    "C26_accepted",
    "C26_samples_lost"
   ],
   "note": "in Properties/LimitProps.v"
  },
  {
   "property": "C27",
   "status": "proved",
   "theorems": [
    "C27_partial_blocks",
    "C27_wav"
   ],
   "note": "in Properties/CallProps.v, Properties/WavProps.v"
  },
  {
   "property": "C28",
   "status": "proved",
   "theorems": [
    "C28_short_first_call",
    "C28_later_calls"
   ],
   "note": "in Properties/CallProps.v"
  },
  {
   "property": "C29",
   "status": "proved",
   "theorems": [
    "C29_gap",
    "C29_short_gaps",
    "C29_long_gap"
   ],
   "note": "in Properties/RoundTripProps.v"
  },
  {
   "property": "C30",
   "status": "proved",
   "theorems": [
    "C30_tail",
    "C30_tail_level0"
   ],
   "note": "in Properties/CallProps.v"
  },
  {
   "property": "C31",
   "status": "proved",
   "theorems": [
    "C31_decode_after_encode",
    "C31_no_output_while_encoding",
    "C31_encode_after_decode"
   ],
   "note": "in Properties/CallProps.v"
  },
  {
   "property": "C32",
   "status": "proved",
   "theorems": [
    "C32_debug_accepts",
    "C32_half_scale_safe",
    "C32_square_refuted"
   ],
   "note": "in Properties/FrameProps.v"
  },
  {
   "property": "C33",
   "status": "proved",
   "theorems": [
    "C33_load_level",
    "C33_level"
   ],
   "note": "in Properties/FileProps.v, Properties/NoiseProps.v"
  },
  {
   "property": "C34",
   "status": "proved",
   "theorems": [
    "C34_triangle",
    "C34_uniform",
    "C34_period"
   ],
   "note": "in Properties/NoiseProps.v, Properties/PeriodProps.v"
  },
  {
   "property": "C35",
   "status": "proved",
   "theorems": [
    "C35_headers_refine_list",
    "C35_wide_exponent_refuted"
   ],
   "note": "in Properties/HeaderProps.v"
  },
  {
   "property": "C36",
   "status": "proved",
   "theorems": [
    "C36_nibble_list_refines_list",
    "C36_push_after_clear_refuted",
    "C36_push_after_clear_law",
    "C36_wide_value_refuted"
   ],
   "note": "in Properties/ContainerProps.v"
  },
  {
   "property": "C37",
   "status": "proved",
   "theorems": [
    "C37_bitvec_refines_list"
   ],
   "note": "in Properties/ContainerProps.v"
  },
  {
   "property": "C38",
   "status": "proved",
   "theorems": [
    "C38_circular_stack_refines_bounded_stack",
    "C38_prev_is_kth_last",
    "C38_is_empty_refuted"
   ],
   "note": "in Properties/ContainerProps.v"
  },
  {
   "property": "C39",
   "status": "proved",
   "theorems": [
    "C39_deque",
    "C39_capacity"
   ],
   "note": "in Properties/CollectionProps.v"
  },
  {
   "property": "C40",
   "status": "proved",
   "theorems": [
    "C40_sequence",
    "C40_spec_determined",
    "C40_remove_single",
    "C40_insert_null"
   ],
   "note": "in Properties/CollectionProps.v"
  },
  {
   "property": "C41",
   "status": "proved",
   "theorems": [
    "C41_recency",
    "C41_spec_bounded",
    "C41_zero_capacity"
   ],
   "note": "in Properties/CollectionProps.v"
  },
  {
   "property": "C42",
   "status": "proved",
   "theorems": [
    "C42_round_trip",
    "C42_everything_back",
    "C42_overwrite"
   ],
   "note": "in Properties/WavProps.v"
  },
  {
   "property": "C43",
   "status": "proved",
   "theorems": [
    "C43_file",
    "C43_load_after_save",
    "C43_short",
    "C43_unlucky",
    "C43_play",
    "C43_wide_panics"
   ],
   "note": "in Properties/WavProps.v"
  },
  {
   "property": "C44",
   "status": "proved",
   "theorems": [
    "C44_size"
   ],
   "note": "in Properties/WavProps.v"
  },
  {
   "property": "C45",
   "status": "proved",
   "theorems": [
    "C45_panics_iff",
    "C45_otherwise"
   ],
   "note": "in Properties/WavProps.v"
  },
  {
   "property": "C46",
   "status": "proved",
   "theorems": [
    "C46_pcm",
    "C46_trailing",
    "C46_size_ignored"
   ],
   "note": "in Properties/WavProps.v"
  },
  {
   "property": "C47",
   "status": "proved",
   "theorems": [
    "C47_expansion",
    "C47_monotone",
    "C47_ends",
    "C47_silence_refuted",
    "C47_play"
   ],
   "note": "in Properties/WavProps.v"
  },
  {
   "property": "C48",
   "status": "proved",
   "theorems": [
    "C48_start",
    "C48_current",
    "C48_same_block",
    "C48_end_is_start",
    "C48_empty_panics",
    "C48_play_from",
    "C48_past_end",
    "C48_there_and_back"
   ],
   "note": "in Properties/WavProps.v"
  },
  {
   "property": "C49",
   "status": "proved",
   "theorems": [
    "C49_pcm_float",
    "C49_changed"
   ],
   "note": "in Properties/NoiseProps.v"
  },
  {
   "property": "C50",
   "status": "proved",
   "theorems": [
    "C50_level0",
    "C50_quiet",
    "C50_lossy_levels",
    "C50_by_loudness",
    "C50_default",
    "C50_panics",
    "C50_wide_lost",
    "C50_release",
    "C50_every_file"
   ],
   "note": "in Properties/CliProps.v"
  },
  {
   "property": "C51",
   "status": "proved",
   "theorems": [
    "C51_zero_channels",
    "C51_missing_sizes"
   ],
   "note": "in Properties/FileProps.v"
  },
  {
   "property": "C52",
   "status": "proved",
   "theorems": [
    "C52_convolve",
    "C52_variants_agree"
   ],
   "note": "in Properties/SignalProps.v"
  },
  {
   "property": "C53",
   "status": "proved",
   "theorems": [
    "C53_zero_makes_reuse_safe"
   ],
   "note": "in Properties/BitStreamProps.v"
  },
  {
   "property": "C54",
   "status": "proved",
   "theorems": [
    "C54_click_rings_forever"
   ],
   "note": "in Properties/SampleProps.v"
  },
  {
   "property": "C55",
   "status": "proved",
   "theorems": [
    "C55_header_lost"
   ],
   "note": "in Properties/WavProps.v"
  },
  {
   "property": "C56",
   "status": "proved",
   "theorems": [
    "C56_copy",
    "C56_exact_refuted"
   ],
   "note": "in Properties/RequantiseProps.v"
  },
  {
   "property": "C57",
   "status": "proved",
   "theorems": [
    "C57_plain",
    "C57_dots",
    "C57_two_dots",
    "C57_hidden",
    "C57_last_one_stays",
    "C57_original_replaced",
    "C57_ignored",
    "C57_exactly"
   ],
   "note": "in Properties/BatchProps.v"
  },
  {
   "property": "C58",
   "status": "proved",
   "theorems": [
    "C58_batch",
    "C58_completes",
    "C58_wav",
    "C58_adhoc",
    "C58_panic_truncates"
   ],
   "note": "in Properties/BatchProps.v"
  },
  {
   "property": "C59",
   "status": "proved",
   "theorems": [
    "C59_any_file_plays",
    "C59_damaged_data_plays",
    "C59_debug_refuted",
    "C59_short_table_refuted"
   ],
   "note": "in Properties/DamageProps.v"
  },
  {
   "property": "C60",
   "status": "proved",
   "theorems": [
    "C60_prefix_intact",
    "C60_forward_refuted"
   ],
   "note": "in Properties/DamageProps.v"
  },
  {
   "property": "C61",
   "status": "proved",
   "theorems": [
    "C61_seek_recovers",
    "C61_boundary_refuted"
   ],
   "note": "in Properties/DamageProps.v"
  },
  {
   "property": "C62",
   "status": "proved",
   "theorems": [
    "C62_own_past"
   ],
   "note": "in Properties/TrackProps.v"
  },
  {
   "property": "C63",
   "status": "proved",
   "theorems": [
    "C63_level0",
    "C63_mono",
    "C63_stereo_refuted"
   ],
   "note": "in Properties/TrackProps.v"
  },
  {
   "property": "C64",
   "status": "proved",
   "theorems": [
    "C64_codec_calls_end",
    "C64_wav_calls_end",
    "C64_tool_ends"
   ],
   "note": "in Properties/TerminationProps.v"
  },
  {
   "property": "C65",
   "status": "proved",
   "theorems": [
    "C65_tables_bounded",
    "C65_channels_refuted"
   ],
   "note": "in Properties/TerminationProps.v"
  },
  {
   "property": "C66",
   "status": "proved",
   "theorems": [
    "C66_saved_size",
    "C66_tool_size",
    "C66_tool_percent"
   ],
   "note": "in Properties/SizeProps.v"
  },
  {
   "property": "C67",
   "status": "proved",
   "theorems": [
    "C67_save_while_playing"
   ],
   "note": "in Properties/PlaySaveProps.v"
  },
  {
   "property": "C68",
   "status": "proved",
   "theorems": [
    "C68_level0_settles",
    "C68_generations",
    "C68_lossy_settles_refuted"
   ],
   "note": "in Properties/GenerationProps.v"
  },
  {
   "property": "C69",
   "status": "proved",
   "theorems": [
    "C69_number",
    "C69_anything_else",
    "C69_no_directory",
    "C69_monotone_refuted"
   ],
   "note": "in Properties/OptionProps.v"
  },
  {
   "property": "C70",
   "status": "proved",
   "theorems": [
    "C70_any_moment",
    "C70_finished",
    "C70_can_finish",
    "C70_clash_mixes"
   ],
   "note": "in Properties/InterruptProps.v"
  },
  {
   "property": "C71",
   "status": "proved",
   "theorems": [
    "C71_tape",
    "C71_last_recorded",
    "C71_odd_byte"
   ],
   "note": "in Properties/TapeProps.v"
  },
  {
   "property": "C72",
   "status": "proved",
   "theorems": [
    "C72_only_a_label",
    "C72_set_any_time",
    "C72_tool",
    "C72_seeks_refuted"
   ],
   "note": "in Properties/RateProps.v"
  },
  {
   "property": "C73",
   "status": "proved",
   "theorems": [
    "C73_any_pieces",
    "C73_read_errors",
    "C73_one_after_another",
    "C73_wav_pieces",
    "C73_wav_offset"
   ],
   "note": "in Properties/StreamProps.v"
  },
  {
   "property": "C74",
   "status": "proved",
   "theorems": [
    "C74_save",
    "C74_failed_save",
    "C74_wav",
    "C74_wav_success_refuted"
   ],
   "note": "in Properties/StreamProps.v"
  },
  {
   "property": "C75",
   "status": "proved",
   "theorems": [
    "C75_little_endian",
    "C75_view_allowed",
    "C75_empty_refuted",
    "C75_files_dont_travel",
    "C75_big_endian_refuted"
   ],
   "note": "in Properties/MemoryProps.v"
  },
  {
   "property": "C76",
   "status": "proved",
   "theorems": [
    "C76_iter_mut",
    "C76_still_a_sequence"
   ],
   "note": "in Properties/MemoryProps.v"
  },
  {
   "property": "C77",
   "status": "proved",
   "theorems": [
    "C77_list",
    "C77_passes_stay_inside",
    "C77_aliasing_refuted",
    "C77_children",
    "C77_accepted",
    "C77_cache"
   ],
   "note": "in Properties/CollectionFileProps.v"
  },
  {
   "property": "C78",
   "status": "proved",
   "theorems": [
    "C78_same_everywhere",
    "C78_two_targets",
    "C78_wav_same_everywhere",
    "C78_enough_memory",
    "C78_wav_enough_memory",
    "C78_any_file_refuted"
   ],
   "note": "in Properties/TargetProps.v"
  },
  {
   "property": "C79",
   "status": "proved",
   "theorems": [
    "C79_short_recordings",
    "C79_long_recordings"
   ],
   "note": "in Properties/TargetProps.v"
  },
  {
   "property": "C80",
   "status": "proved",
   "theorems": [
    "C80_silence",
    "C80_smallest_file",
    "C80_higher_level_smaller_refuted"
   ],
   "note": "in Properties/SilenceProps.v"
  },
  {
   "property": "C81",
   "status": "proved",
   "theorems": [
    "C81_level_changes",
    "C81_last_setting_counts",
    "C81_level_afterwards",
    "C81_keeps_loudness_refuted"
   ],
   "note": "in Properties/LevelProps.v"
  },
  {
   "property": "C82",
   "status": "proved",
   "theorems": [
    "C82_same_calls",
    "C82_encode",
    "C82_decode",
    "C82_playback",
    "C82_count",
    "C82_seek",
    "C82_seek_recording"
   ],
   "note": "in Properties/SpeedProps.v"
  },
  {
   "property": "C83",
   "status": "proved",
   "theorems": [
    "C83_same_calls",
    "C83_room_decode",
    "C83_room_encode",
    "C83_room_wav",
    "C83_encode",
    "C83_memory",
    "C83_decode",
    "C83_playback",
    "C83_wav"
   ],
   "note": "in Properties/AllocationProps.v"
  },
  {
   "property": "C84",
   "status": "proved",
   "theorems": [
    "C84_samples",
    "C84_linear",
    "C84_held",
    "C84_steps",
    "C84_reached",
    "C84_tool",
    "C84_tool_reached",
    "C84_tool_example",
    "C84_wav"
   ],
   "note": "in Properties/BombProps.v"
  },
  {
   "property": "C85",
   "status": "proved",
   "theorems": [
    "C85_rejects",
    "C85_converts",
    "C85_panics",
    "C85_release_panics",
    "C85_debug_panics",
    "C85_builds_agree"
   ],
   "note": "in Properties/ConvertibleProps.v"
  },
  {
   "property": "C86",
   "status": "proved",
   "theorems": [
    "C86_compress",
    "C86_order",
    "C86_both"
   ],
   "note": "in Properties/ExampleProps.v"
  },
  {
   "property": "C87",
   "status": "proved",
   "theorems": [
    "C87_bytes",
    "C87_injective",
    "C87_portable_refuted"
   ],
   "note": "in Properties/InfoBytesProps.v"
  },
  {
   "property": "C88",
   "status": "proved",
   "theorems": [
    "C88_player",
    "C88_saved",
    "C88_tape"
   ],
   "note": "in Properties/PlayerProps.v"
  },
  {
   "property": "C89",
   "status": "proved",
   "theorems": [
    "C89_fills",
    "C89_range",
    "C89_interpolates",
    "C89_first",
    "C89_same_length",
    "C89_one_place_refuted",
    "C89_empty",
    "C89_last_refuted"
   ],
   "note": "in Properties/ResampleProps.v"
  },
  {
   "property": "C90",
   "status": "proved",
   "theorems": [
    "C90_self",
    "C90_empty",
    "C90_nan",
    "C90_not_negative",
    "C90_symmetric"
   ],
   "note": "in Properties/MseProps.v"
  },
  {
   "property": "C91",
   "status": "proved",
   "theorems": [
    "C91_not_loaded",
    "C91_no_channels",
    "C91_too_many_channels",
    "C91_converts",
    "C91_breaks",
    "C91_exactly",
    "C91_player",
    "C91_gap_refuted"
   ],
   "note": "in Properties/TableProps.v"
  },
  {
   "property": "C92",
   "status": "proved",
   "theorems": [
    "C92_length",
    "C92_bell",
    "C92_one_tap",
    "C92_peak",
    "C92_mirror_refuted"
   ],
   "note": "in Properties/GaussianProps.v"
  },
  {
   "property": "C93",
   "status": "proved",
   "theorems": [
    "C93_get",
    "C93_set",
    "C93_remove_stale",
    "C93_insert_stale",
    "C93_allocate",
    "C93_free_entry",
    "C93_lost_item_refuted",
    "C93_double_free_refuted"
   ],
   "note": "in Properties/HandleProps.v"
  },
  {
   "property": "C94",
   "status": "proved",
   "theorems": [
    "C94_loads",
    "C94_rejects",
    "C94_debug",
    "C94_loaded",
    "C94_copy",
    "C94_saved"
   ],
   "note": "in Properties/FormatProps.v"
  },
  {
   "property": "C95",
   "status": "proved",
   "theorems": [
    "C95_ring",
    "C95_ring_filled",
    "C95_ring_outside",
    "C95_ring_taken",
    "C95_stack",
    "C95_stack_write",
    "C95_stack_outside"
   ],
   "note": "in Properties/RawIndexProps.v"
  },
  {
   "property": "C96",
   "status": "proved",
   "theorems": [
    "C96_program",
    "C96_targets",
    "C96_conversions",
    "C96_batch",
    "C96_streams",
    "C96_examples",
    "C96_ring",
    "C96_list",
    "C96_cache",
    "C96_tools"
   ],
   "note": "in Properties/ProfileProps.v"
  },
  {
   "property": "C97",
   "status": "proved",
   "theorems": [
    "C97_error",
    "C97_usual",
    "C97_monotone",
    "C97_grid",
    "C97_same_time",
    "C97_seek",
    "C97_wav"
   ],
   "note": "in Properties/PrecisionProps.v"
  },
  {
   "property": "C98",
   "status": "proved",
   "theorems": [
    "C98_list",
    "C98_cache",
    "C98_cache_any",
    "C98_text"
   ],
   "note": "in Properties/CacheMemoryProps.v"
  },
  {
   "property": "C99",
   "status": "proved",
   "theorems": [
    "C99_saved_size",
    "C99_tool_size",
    "C99_tool_percent",
    "C99_highest_level_refuted"
   ],
   "note": "in Properties/LevelSizeProps.v"
  },
  {
   "property": "C100",
   "status": "proved",
   "theorems": [
    "C100_last_settings_count",
    "C100_no_format",
    "C100_more_channels_and_back",
    "C100_channels_midway_refuted"
   ],
   "note": "in Properties/SettingsProps.v"
  },
  {
   "property": "C101",
   "status": "proved",
   "theorems": [
    "C101_same_size",
    "C101_inverted_sound",
    "C101_higher_levels_refuted",
    "C101_any_signal_refuted"
   ],
   "note": "in Properties/MirrorProps.v"
  }
 ]
}