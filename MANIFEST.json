{
 "claims": [
  {
   "property": "C01",
   "status": "proved",
   "theorems": [
    "pipe_fifo_lossless",
    "pipe_send_completes"
   ],
   "note": ""
  },
  {
   "property": "C02",
   "status": "partial",
   "theorems": [
    "pipe_any_size_refuted",
    "pipe_any_size_corrupts_refuted"
   ],
   "note": "The property is false of the code: two witness runs (records lost for ever; record truncated) are proved. The true part (multiples of four) is C01."
  },
  {
   "property": "C03",
   "status": "proved",
   "theorems": [
    "pipe_drained_accepts",
    "pipe_drained_accepts_all_refuted"
   ],
   "note": "Both halves: accepts when 2*(n+8) <= size; a drained pipe refusing a record that fits the whole buffer is a proved witness."
  },
  {
   "property": "C04",
   "status": "proved",
   "theorems": [
    "queue_refines_sorted_list",
    "queue_pending_sorted",
    "queue_ties_fifo"
   ],
   "note": "linked-list code over the byte-level pool refines a stable sorted list for every history; the only other outcome is pool exhaustion (C08)"
  },
  {
   "property": "C05",
   "status": "proved",
   "theorems": [
    "queue_refines_sorted_list"
   ],
   "note": "Cancel in QueueSpec.correct: removes exactly the entries with that handle and destination and reports it"
  },
  {
   "property": "C06",
   "status": "partial",
   "theorems": [
    "queue_clear_after_refuted"
   ],
   "note": "The property is false of the code (mq_clearAfter leaves a dangling next pointer): witness proved."
  },
  {
   "property": "C07",
   "status": "proved",
   "theorems": [
    "pool_messages_disjoint_intact"
   ],
   "note": "for every history, even with wrong claimed sizes"
  },
  {
   "property": "C08",
   "status": "proved",
   "theorems": [
    "pool_never_exhausted"
   ],
   "note": ""
  },
  {
   "property": "C09",
   "status": "proved",
   "theorems": [
    "process_delivers_exactly_once_in_order",
    "session_delivers_in_order",
    "process_self_cancel_refuted"
   ],
   "note": "for every causal patch, before the 32-bit clock wraps (C10); the causality boundary has a proved witness"
  },
  {
   "property": "C10",
   "status": "partial",
   "theorems": [
    "process_clock_wrap_order_refuted",
    "process_clock_wrap_stuck_refuted"
   ],
   "note": "The property is false of the code: two witness sessions proved."
  },
  {
   "property": "C100",
   "status": "partial",
   "theorems": [
    "expr_tilde_unsupported_refuted"
   ],
   "note": "False of the code: $v0 reads in front of the inputs; $i variables and drem end the compiler."
  },
  {
   "property": "C101",
   "status": "proved",
   "theorems": [
    "expr_tilde_calls_own_function"
   ],
   "note": ""
  },
  {
   "property": "C102",
   "status": "proved",
   "theorems": [
    "expr_variables_bound"
   ],
   "note": "The renaming of functions (internal_expr) is not modelled; it does not touch variables."
  },
  {
   "property": "C103",
   "status": "partial",
   "theorems": [
    "expr_control_variables_refuted"
   ],
   "note": "False of the code: $f0 reads args[-1], $s ends the compiler, $v is left in the C text."
  },
  {
   "property": "C104",
   "status": "proved",
   "theorems": [
    "expr_control_answers"
   ],
   "note": ""
  },
  {
   "property": "C105",
   "status": "proved",
   "theorems": [
    "operators_compute_what_the_patch_says",
    "heavy_operators_compute_what_the_patch_says",
    "operators_end_to_end"
   ],
   "note": "Float signals; operators in subpatches are numbered globally; the end-to-end form assumes the reduced patch is well formed (shown for an example)."
  },
  {
   "property": "C106",
   "status": "partial",
   "theorems": [
    "zero_factor_refuted"
   ],
   "note": "False of the code: adc~ -> [*~ 0] -> [+~ 5] -> dac~ is silent if the objects were created in this order, and 5 otherwise."
  },
  {
   "property": "C107",
   "status": "proved",
   "theorems": [
    "milliseconds_round_down"
   ],
   "note": "Flocq binary32/binary64."
  },
  {
   "property": "C108",
   "status": "proved",
   "theorems": [
    "samples_round_trip"
   ],
   "note": ""
  },
  {
   "property": "C109",
   "status": "partial",
   "theorems": [
    "samples_round_trip_refuted"
   ],
   "note": "False of the code: 5 samples come back as 4 at 44.1 and 48 kHz. C108 is what holds."
  },
  {
   "property": "C11",
   "status": "proved",
   "theorems": [
    "process_split",
    "process_nodsp_split"
   ],
   "note": ""
  },
  {
   "property": "C110",
   "status": "proved",
   "theorems": [
    "message_delays"
   ],
   "note": ""
  },
  {
   "property": "C111",
   "status": "partial",
   "theorems": [
    "message_delay_exact_refuted"
   ],
   "note": "False of the code: 25 ms at 37.8 kHz are 945 samples, the message is stamped with 944. C110 is what holds."
  },
  {
   "property": "C112",
   "status": "proved",
   "theorems": [
    "recorder_in_bounds"
   ],
   "note": "Without set messages and table resizes. The patch of the abstraction is transcribed by hand."
  },
  {
   "property": "C113",
   "status": "proved",
   "theorems": [
    "recorder_records"
   ],
   "note": "Start positions are whole numbers."
  },
  {
   "property": "C114",
   "status": "partial",
   "theorems": [
    "recorder_whole_refuted"
   ],
   "note": "False of the code: a table of 100 cells at 48 kHz keeps its last 4 cells. C113 is what holds."
  },
  {
   "property": "C115",
   "status": "partial",
   "theorems": [
    "recorder_set_refuted"
   ],
   "note": "False of the code: set during a recording writes behind the end of a smaller table; an unknown name makes the next recording dereference NULL."
  },
  {
   "property": "C116",
   "status": "proved",
   "theorems": [
    "patch_runs_deterministic"
   ],
   "note": "The .pd file is transcribed by hand (PatchLibs.v)."
  },
  {
   "property": "C117",
   "status": "proved",
   "theorems": [
    "moses_splits"
   ],
   "note": "The .pd file is transcribed by hand (PatchLibs.v). NaN goes left."
  },
  {
   "property": "C118",
   "status": "proved",
   "theorems": [
    "spigot_gates"
   ],
   "note": "The .pd file is transcribed by hand (PatchLibs.v)."
  },
  {
   "property": "C119",
   "status": "proved",
   "theorems": [
    "change_passes_changes"
   ],
   "note": "The .pd file is transcribed by hand (PatchLibs.v)."
  },
  {
   "property": "C12",
   "status": "proved",
   "theorems": [
    "hash_ascii_agree",
    "hash_is_u32",
    "hash_bang_refuted"
   ],
   "note": "all ASCII names except bang; the bang boundary has a proved witness"
  },
  {
   "property": "C120",
   "status": "partial",
   "theorems": [
    "change_refuted"
   ],
   "note": "False of the code: 0.1252963 (its encoding is the hash of \"set\") is swallowed. C119 is what holds."
  },
  {
   "property": "C121",
   "status": "proved",
   "theorems": [
    "swap_swaps"
   ],
   "note": "The .pd file is transcribed by hand (PatchLibs.v). Numbers whose encoding is the hash of symbol, and NaNs with the encoding of bang, excluded."
  },
  {
   "property": "C122",
   "status": "proved",
   "theorems": [
    "int_truncates"
   ],
   "note": "The .pd file is transcribed by hand (PatchLibs.v)."
  },
  {
   "property": "C123",
   "status": "proved",
   "theorems": [
    "clip_clips"
   ],
   "note": "The .pd file is transcribed by hand (PatchLibs.v)."
  },
  {
   "property": "C124",
   "status": "proved",
   "theorems": [
    "tgl_toggles"
   ],
   "note": "The .pd file is transcribed by hand (PatchLibs.v)."
  },
  {
   "property": "C125",
   "status": "proved",
   "theorems": [
    "notein_filters"
   ],
   "note": "The .pd file is transcribed by hand (PatchLibs.v). Channels below 2^24."
  },
  {
   "property": "C126",
   "status": "proved",
   "theorems": [
    "midi_values_filtered"
   ],
   "note": "The .pd file is transcribed by hand (PatchLibs.v). Channels below 2^24."
  },
  {
   "property": "C127",
   "status": "proved",
   "theorems": [
    "ctlin_filters"
   ],
   "note": "The .pd file is transcribed by hand (PatchLibs.v)."
  },
  {
   "property": "C128",
   "status": "partial",
   "theorems": [
    "ctlin_zero_refuted",
    "ctlin_channel_refuted"
   ],
   "note": "False of the code: controller 0 is followed by the channel at the controller's outlet; ctlin 0 k passes every channel. C127 is what holds."
  },
  {
   "property": "C129",
   "status": "proved",
   "theorems": [
    "midi_notes_sent"
   ],
   "note": "The .pd file is transcribed by hand (PatchLibs.v)."
  },
  {
   "property": "C13",
   "status": "partial",
   "theorems": [
    "hash_non_ascii_refuted"
   ],
   "note": "The property is false of the code: witnesses (different hash; compiler exception) proved."
  },
  {
   "property": "C130",
   "status": "proved",
   "theorems": [
    "midi_values_sent"
   ],
   "note": "The .pd file is transcribed by hand (PatchLibs.v)."
  },
  {
   "property": "C131",
   "status": "partial",
   "theorems": [
    "midi_out_list_refuted"
   ],
   "note": "False of the code: the third number of a list is sent without subtracting 1; bendout adds the second number to the first. C129 and C130 are what holds."
  },
  {
   "property": "C132",
   "status": "proved",
   "theorems": [
    "delay_delays"
   ],
   "note": "The .pd file is transcribed by hand (PatchLibs.v). Numbers whose encoding is the hash of stop or symbol excluded."
  },
  {
   "property": "C133",
   "status": "proved",
   "theorems": [
    "pipe_delays"
   ],
   "note": "The .pd file is transcribed by hand (PatchLibs.v). Messages flush and clear are not covered."
  },
  {
   "property": "C134",
   "status": "proved",
   "theorems": [
    "metro_ticks",
    "metro_steady"
   ],
   "note": "The .pd file is transcribed by hand (PatchLibs.v)."
  },
  {
   "property": "C135",
   "status": "partial",
   "theorems": [
    "metro_period_refuted"
   ],
   "note": "False of the code: 90 ms at 44.1 kHz are 3969 samples, metro ticks every 3968. C134 is what holds."
  },
  {
   "property": "C136",
   "status": "partial",
   "theorems": [
    "metro_minus_zero_refuted"
   ],
   "note": "False of the code: -0 starts metro, because encodings are compared."
  },
  {
   "property": "C137",
   "status": "proved",
   "theorems": [
    "timer_measures"
   ],
   "note": "The .pd file is transcribed by hand (PatchLibs.v)."
  },
  {
   "property": "C138",
   "status": "partial",
   "theorems": [
    "timer_refuted"
   ],
   "note": "False of the code: the time is a float; after 2^24 samples (6 minutes) one sample more is no time. C137 is what holds."
  },
  {
   "property": "C139",
   "status": "proved",
   "theorems": [
    "until_counts"
   ],
   "note": "The .pd file is transcribed by hand (PatchLibs.v)."
  },
  {
   "property": "C14",
   "status": "proved",
   "theorems": [
    "message_read_back",
    "message_element_copied",
    "message_negative_index_refuted"
   ],
   "note": "indices at or past the end trip the assertion; negative indices are undefined (witness)"
  },
  {
   "property": "C140",
   "status": "partial",
   "theorems": [
    "until_refuted"
   ],
   "note": "False of the code: above 2^24 the counter sticks and the loop never ends; bang does nothing. C139 is what holds."
  },
  {
   "property": "C141",
   "status": "proved",
   "theorems": [
    "makenote_ends_notes"
   ],
   "note": "The .pd file is transcribed by hand (PatchLibs.v)."
  },
  {
   "property": "C142",
   "status": "partial",
   "theorems": [
    "makenote_refuted"
   ],
   "note": "False of the code: the ninth waiting note fails an assertion. C141 is what holds."
  },
  {
   "property": "C143",
   "status": "proved",
   "theorems": [
    "stripnote_strips"
   ],
   "note": "The .pd file is transcribed by hand (PatchLibs.v)."
  },
  {
   "property": "C144",
   "status": "partial",
   "theorems": [
    "stripnote_refuted"
   ],
   "note": "False of the code: the velocity 0 of a list is forgotten. C143 is what holds."
  },
  {
   "property": "C145",
   "status": "proved",
   "theorems": [
    "clip_limits"
   ],
   "note": "One lane; see Simplifications."
  },
  {
   "property": "C146",
   "status": "partial",
   "theorems": [
    "clip_limits_refuted",
    "clip_nan_bounded"
   ],
   "note": "False of the code: on NEON a NaN passes. Elsewhere it becomes the upper bound."
  },
  {
   "property": "C147",
   "status": "proved",
   "theorems": [
    "wrap_fraction"
   ],
   "note": "One lane; see Simplifications."
  },
  {
   "property": "C148",
   "status": "partial",
   "theorems": [
    "wrap_below_one_refuted"
   ],
   "note": "False of the code: -2^-30 gives 1. C147 is what holds."
  },
  {
   "property": "C149",
   "status": "proved",
   "theorems": [
    "abs_everywhere"
   ],
   "note": "One lane; see Simplifications."
  },
  {
   "property": "C15",
   "status": "proved",
   "theorems": [
    "message_copy_deep",
    "message_copy_allocates_enough"
   ],
   "note": "Proved byte for byte."
  },
  {
   "property": "C150",
   "status": "proved",
   "theorems": [
    "division_by_zero",
    "division_rounds"
   ],
   "note": "One lane; see Simplifications."
  },
  {
   "property": "C151",
   "status": "partial",
   "theorems": [
    "division_neon_close",
    "division_neon_refuted"
   ],
   "note": "False of the code: NEON multiplies by an estimate of the reciprocal; 1/1 is not 1. The quotient is right to a part in 300."
  },
  {
   "property": "C152",
   "status": "proved",
   "theorems": [
    "sqrt_positive"
   ],
   "note": "One lane; see Simplifications."
  },
  {
   "property": "C153",
   "status": "proved",
   "theorems": [
    "cos_close"
   ],
   "note": "One lane; see Simplifications."
  },
  {
   "property": "C154",
   "status": "proved",
   "theorems": [
    "osc_close"
   ],
   "note": "One lane; see Simplifications. The phase is the output of phasor~ (C30, C45)."
  },
  {
   "property": "C155",
   "status": "proved",
   "theorems": [
    "ftom_close",
    "rmstodb_close",
    "rmstodb_silence"
   ],
   "note": "One lane; see Simplifications."
  },
  {
   "property": "C156",
   "status": "partial",
   "theorems": [
    "logarithm_avx_refuted"
   ],
   "note": "False of the code: __hv_log2_f fails an assertion on AVX. C155 is what holds on SSE and NEON."
  },
  {
   "property": "C157",
   "status": "partial",
   "theorems": [
    "comparison_scalar",
    "comparison_simd_refuted"
   ],
   "note": "False of the code: with SIMD a comparison that holds is a mask, which is a NaN as a sample. True without SIMD."
  },
  {
   "property": "C158",
   "status": "partial",
   "theorems": [
    "functions_scalar",
    "functions_simd_refuted"
   ],
   "note": "False of the code: they fail an assertion on all SIMD builds. True without SIMD."
  },
  {
   "property": "C159",
   "status": "proved",
   "theorems": [
    "tabread_in_table"
   ],
   "note": "One lane; see Simplifications."
  },
  {
   "property": "C16",
   "status": "proved",
   "theorems": [
    "message_has_format"
   ],
   "note": ""
  },
  {
   "property": "C160",
   "status": "partial",
   "theorems": [
    "tabread_truncates",
    "tabread_rounds_refuted"
   ],
   "note": "False of the code: AVX and SSE take the nearest sample. True on NEON and without SIMD."
  },
  {
   "property": "C161",
   "status": "proved",
   "theorems": [
    "tabread4_interpolates",
    "tabread4_in_table"
   ],
   "note": "One lane; see Simplifications."
  },
  {
   "property": "C162",
   "status": "partial",
   "theorems": [
    "tabread4_one_refuted"
   ],
   "note": "False of the code: a table of one sample fails an assertion. C161 is what holds."
  },
  {
   "property": "C163",
   "status": "proved",
   "theorems": [
    "lop_stays_bounded"
   ],
   "note": "Build without SIMD, no contraction of products and sums."
  },
  {
   "property": "C164",
   "status": "partial",
   "theorems": [
    "sqrt_neon_refuted"
   ],
   "note": "False of the code: where the estimate of the reciprocal root of infinity is 0, the root of infinity is a NaN. The estimate itself is a parameter."
  },
  {
   "property": "C165",
   "status": "proved",
   "theorems": [
    "records_read"
   ],
   "note": "Atoms without backslashes and line ends."
  },
  {
   "property": "C166",
   "status": "partial",
   "theorems": [
    "records_refuted"
   ],
   "note": "False of the code: a record that ends with a backslash swallows the next one; a message that ends with ', f 10' loses its end. C165 is what holds."
  },
  {
   "property": "C167",
   "status": "proved",
   "theorems": [
    "message_box_read"
   ],
   "note": "Boxes with a message for the outlet; words without white space, commas, semicolons and backslashes."
  },
  {
   "property": "C168",
   "status": "partial",
   "theorems": [
    "message_box_refuted"
   ],
   "note": "False of the code: a box that begins with a semicolon sends the receiver's name and message to its outlet; a symbol with a space becomes two words."
  },
  {
   "property": "C169",
   "status": "proved",
   "theorems": [
    "patch_is_read"
   ],
   "note": "Object, message, comment, subpatch and table boxes; abstractions and classes are not expanded. In subpatches objects have no names and message boxes no receivers, see C172."
  },
  {
   "property": "C17",
   "status": "proved",
   "theorems": [
    "message_text"
   ],
   "note": "printf %g is a parameter"
  },
  {
   "property": "C170",
   "status": "proved",
   "theorems": [
    "gui_names_linked"
   ],
   "note": "Names without $ arguments and special characters."
  },
  {
   "property": "C171",
   "status": "proved",
   "theorems": [
    "remote_messages_linked"
   ],
   "note": "Connections from a first outlet."
  },
  {
   "property": "C172",
   "status": "partial",
   "theorems": [
    "links_refuted"
   ],
   "note": "False of the code: in subpatches neither is done; the hidden box is connected to the first outlet, whichever outlet was connected. C170 and C171 are what holds."
  },
  {
   "property": "C173",
   "status": "partial",
   "theorems": [
    "table_sizes_refuted"
   ],
   "note": "False of the code, see the theorem. Tables with as many values as declared are read right (C169)."
  },
  {
   "property": "C174",
   "status": "proved",
   "theorems": [
    "arguments_found"
   ],
   "note": "Files without broken lines; no other text mentions @hv_arg; no subpatch has the first line of one around it."
  },
  {
   "property": "C175",
   "status": "partial",
   "theorems": [
    "arguments_refuted"
   ],
   "note": "False of the code in all three cases. C174 is what holds."
  },
  {
   "property": "C176",
   "status": "proved",
   "theorems": [
    "instances_have_their_own_number"
   ],
   "note": "Python's stack suffices for the depth."
  },
  {
   "property": "C177",
   "status": "partial",
   "theorems": [
    "recursion_refuted"
   ],
   "note": "False of the code: the check never succeeds, as the path of a graph is overwritten and its parent is not known while it is read."
  },
  {
   "property": "C178",
   "status": "proved",
   "theorems": [
    "receivers_in_pd_order"
   ],
   "note": "With the compiler's grouping of receivers (C36)."
  },
  {
   "property": "C179",
   "status": "partial",
   "theorems": [
    "receiver_order_refuted"
   ],
   "note": "False of the code: receiver 1 on level 1 comes before receiver 1002 on level 2. C178 is what holds."
  },
  {
   "property": "C18",
   "status": "proved",
   "theorems": [
    "delay_fires_once"
   ],
   "note": "No undefined behaviour; an assertion fails only on a ninth pending message; the bag of due times is simulated step by step."
  },
  {
   "property": "C180",
   "status": "proved",
   "theorems": [
    "plugin_midi_in"
   ],
   "note": "Raw bytes for midiin are apart (C181)."
  },
  {
   "property": "C181",
   "status": "partial",
   "theorems": [
    "plugin_raw_in_refuted"
   ],
   "note": "False of the code: the index of the inner loop hides the one of the events, so that byte j comes from event j, behind the array if there are fewer than four."
  },
  {
   "property": "C182",
   "status": "partial",
   "theorems": [
    "plugin_realtime_in_refuted"
   ],
   "note": "False of the code: the format asks for two floats, one is passed."
  },
  {
   "property": "C183",
   "status": "proved",
   "theorems": [
    "plugin_midi_time"
   ],
   "note": "Frames up to 2^23."
  },
  {
   "property": "C184",
   "status": "partial",
   "theorems": [
    "plugin_midi_time_refuted"
   ],
   "note": "False of the code: all messages of a block get the frame of the first event. C183 is what holds."
  },
  {
   "property": "C185",
   "status": "proved",
   "theorems": [
    "midi_bytes_sent"
   ],
   "note": "Polyphonic pressure of plugins on port 0 only (C186)."
  },
  {
   "property": "C186",
   "status": "partial",
   "theorems": [
    "polytouch_port_refuted"
   ],
   "note": "False of the code: on the second port it leaves as a controller change."
  },
  {
   "property": "C187",
   "status": "partial",
   "theorems": [
    "midi_range_refuted"
   ],
   "note": "False of the code: 128 to 255 are sent as data bytes, other values are undefined behaviour. C185 is what holds."
  },
  {
   "property": "C188",
   "status": "proved",
   "theorems": [
    "notes_reach_device"
   ],
   "note": "Numbers in MIDI's ranges; composed of C129 and C185."
  },
  {
   "property": "C189",
   "status": "partial",
   "theorems": [
    "raw_out_refuted"
   ],
   "note": "False of the code: the count of bytes is not initialised; from 0 on bytes leave in groups of four."
  },
  {
   "property": "C19",
   "status": "proved",
   "theorems": [
    "random_in_range",
    "random_never_stuck",
    "random_full_period"
   ],
   "note": ""
  },
  {
   "property": "C190",
   "status": "proved",
   "theorems": [
    "page_midi_in"
   ],
   "note": ""
  },
  {
   "property": "C191",
   "status": "proved",
   "theorems": [
    "page_midi_out"
   ],
   "note": "Whole numbers."
  },
  {
   "property": "C192",
   "status": "partial",
   "theorems": [
    "page_raw_refuted",
    "page_raw_list"
   ],
   "note": "False of the code, see the theorem."
  },
  {
   "property": "C193",
   "status": "proved",
   "theorems": [
    "transport_follows_host"
   ],
   "note": "Whenever the blocks end (C194, C195)."
  },
  {
   "property": "C194",
   "status": "proved",
   "theorems": [
    "clock_keeps_time"
   ],
   "note": "At least one sample between ticks."
  },
  {
   "property": "C195",
   "status": "partial",
   "theorems": [
    "clock_tempo_refuted"
   ],
   "note": "False of the code: after a block with tempo 0 no tick ever comes; with an infinite tempo the block never ends."
  },
  {
   "property": "C196",
   "status": "partial",
   "theorems": [
    "clock_phase_refuted"
   ],
   "note": "False of the code: the clock goes on where it stopped."
  },
  {
   "property": "C197",
   "status": "proved",
   "theorems": [
    "device_print"
   ],
   "note": ""
  },
  {
   "property": "C198",
   "status": "partial",
   "theorems": [
    "print_refuted"
   ],
   "note": "False of the code: longer messages read behind the buffer, plugins lose the label. C197 is what holds."
  },
  {
   "property": "C199",
   "status": "proved",
   "theorems": [
    "float_keeps_a_number",
    "sliders_pass_numbers",
    "number_boxes_pass_numbers"
   ],
   "note": ""
  },
  {
   "property": "C20",
   "status": "proved",
   "theorems": [
    "binop_defined_iff_safe",
    "binop_history_defined",
    "binop_zero_divisor"
   ],
   "note": ""
  },
  {
   "property": "C200",
   "status": "partial",
   "theorems": [
    "float_list_refuted"
   ],
   "note": "False of the code: the list is sent as it is."
  },
  {
   "property": "C201",
   "status": "proved",
   "theorems": [
    "wrap_is_the_fraction",
    "mtof_is_the_frequency",
    "ftom_is_the_pitch",
    "dbtorms_is_the_amplitude",
    "dbtopow_is_the_power",
    "rmstodb_is_the_level",
    "powtodb_is_the_level"
   ],
   "note": "Given that powf and logf are right to a millionth; shown for correctly rounded ones."
  },
  {
   "property": "C202",
   "status": "proved",
   "theorems": [
    "div_drops_the_remainder"
   ],
   "note": ""
  },
  {
   "property": "C203",
   "status": "proved",
   "theorems": [
    "midiin_reports",
    "midirealtimein_reports"
   ],
   "note": ""
  },
  {
   "property": "C204",
   "status": "proved",
   "theorems": [
    "random_stays_below"
   ],
   "note": ""
  },
  {
   "property": "C205",
   "status": "proved",
   "theorems": [
    "random_repeats"
   ],
   "note": ""
  },
  {
   "property": "C206",
   "status": "proved",
   "theorems": [
    "trigger_right_to_left"
   ],
   "note": ""
  },
  {
   "property": "C207",
   "status": "partial",
   "theorems": [
    "trigger_number_refuted"
   ],
   "note": "False of the code: nothing is sent."
  },
  {
   "property": "C208",
   "status": "proved",
   "theorems": [
    "unpack_distributes"
   ],
   "note": "Bang counts as an element."
  },
  {
   "property": "C209",
   "status": "proved",
   "theorems": [
    "pack_collects"
   ],
   "note": "Numbers; symbols at the other inlets: C53."
  },
  {
   "property": "C21",
   "status": "proved",
   "theorems": [
    "int_div_rem_exact",
    "mod_unipolar_exact"
   ],
   "note": ""
  },
  {
   "property": "C210",
   "status": "proved",
   "theorems": [
    "route_takes_the_first"
   ],
   "note": ""
  },
  {
   "property": "C211",
   "status": "partial",
   "theorems": [
    "route_refuted"
   ],
   "note": "False of the code on all three counts."
  },
  {
   "property": "C212",
   "status": "proved",
   "theorems": [
    "select_takes_the_first"
   ],
   "note": ""
  },
  {
   "property": "C213",
   "status": "proved",
   "theorems": [
    "line_moves_in_steps"
   ],
   "note": "Rates of 1000 q samples; times of at most 2^24/(125 q) ms, so that the patch's floats are exact."
  },
  {
   "property": "C214",
   "status": "proved",
   "theorems": [
    "line_ramps_to_its_target"
   ],
   "note": ""
  },
  {
   "property": "C215",
   "status": "proved",
   "theorems": [
    "line_keeps_to_the_straight_line"
   ],
   "note": ""
  },
  {
   "property": "C216",
   "status": "proved",
   "theorems": [
    "line_arrives_in_time"
   ],
   "note": ""
  },
  {
   "property": "C217",
   "status": "partial",
   "theorems": [
    "line_arrives_in_time_refuted"
   ],
   "note": "False of the code: [v 30] with a grain of 20 arrives after 40 ms (in Pd after 30)."
  },
  {
   "property": "C218",
   "status": "proved",
   "theorems": [
    "page_real_time"
   ],
   "note": ""
  },
  {
   "property": "C219",
   "status": "proved",
   "theorems": [
    "noise_in_range"
   ],
   "note": "Seeds whose integer part is between -2^31 and 2^31 - 8."
  },
  {
   "property": "C22",
   "status": "proved",
   "theorems": [
    "table_resize_usable",
    "table_resize_scalar"
   ],
   "note": ""
  },
  {
   "property": "C220",
   "status": "proved",
   "theorems": [
    "noise_period"
   ],
   "note": ""
  },
  {
   "property": "C221",
   "status": "partial",
   "theorems": [
    "noise_neighbours_refuted"
   ],
   "note": "False of the code: the lanes of a vector are seeded with k, k+1, k+2, ...; the second difference of three neighbours is an even number up to rounding, so that the third follows from the first two."
  },
  {
   "property": "C222",
   "status": "partial",
   "theorems": [
    "noise_lane_refuted"
   ],
   "note": "False of the code: powers of two in the seed shorten the period of a lane, 0 silences it. C220 is what holds of whole vectors."
  },
  {
   "property": "C223",
   "status": "partial",
   "theorems": [
    "noise_scalar_refuted"
   ],
   "note": "False of the code: the product of ints overflows within three samples for every seed but 0, which is silent."
  },
  {
   "property": "C224",
   "status": "proved",
   "theorems": [
    "lop_follows_its_cutoff"
   ],
   "note": ""
  },
  {
   "property": "C225",
   "status": "proved",
   "theorems": [
    "lop_coefficient"
   ],
   "note": ""
  },
  {
   "property": "C226",
   "status": "proved",
   "theorems": [
    "lop_bounded_whatever_is_sent"
   ],
   "note": "Combines the messages (C224) with the recurrence of C163."
  },
  {
   "property": "C227",
   "status": "proved",
   "theorems": [
    "hip_follows_its_cutoff"
   ],
   "note": ""
  },
  {
   "property": "C228",
   "status": "proved",
   "theorems": [
    "hip_coefficient"
   ],
   "note": ""
  },
  {
   "property": "C229",
   "status": "proved",
   "theorems": [
    "hip_stays_bounded"
   ],
   "note": ""
  },
  {
   "property": "C23",
   "status": "proved",
   "theorems": [
    "table_owns_memory"
   ],
   "note": ""
  },
  {
   "property": "C230",
   "status": "partial",
   "theorems": [
    "hip_stays_bounded_refuted"
   ],
   "note": "False of the code: the state of hip~ is not scaled with the cutoff; after 2000 samples of 1 at 1 Hz a change to 20 kHz gives a sample of -499 or less. C229 is what holds."
  },
  {
   "property": "C231",
   "status": "proved",
   "theorems": [
    "bp_follows_cutoff_and_q"
   ],
   "note": ""
  },
  {
   "property": "C232",
   "status": "proved",
   "theorems": [
    "bp_poles_in_the_circle"
   ],
   "note": ""
  },
  {
   "property": "C233",
   "status": "partial",
   "theorems": [
    "bp_poles_in_the_circle_refuted"
   ],
   "note": "False of the code: a negative cutoff puts the poles outside the unit circle (a2 > 1). C232 is what holds."
  },
  {
   "property": "C234",
   "status": "proved",
   "theorems": [
    "parameter_default_within_limits",
    "parameter_numbers_used"
   ],
   "note": ""
  },
  {
   "property": "C235",
   "status": "partial",
   "theorems": [
    "raw_default_outside_limits_refuted"
   ],
   "note": "False of the code: without a default, @raw takes (max - min) / 2, not the middle: 5 for limits 10 and 20; nothing is reported. C234 is what holds without @raw."
  },
  {
   "property": "C236",
   "status": "proved",
   "theorems": [
    "one_raw_word_is_deterministic",
    "raw_numbers_used"
   ],
   "note": ""
  },
  {
   "property": "C237",
   "status": "partial",
   "theorems": [
    "raw_words_order_refuted"
   ],
   "note": "False of the code: the words are a Python set of texts; @raw with numbers overwrites @raw_min or the other way round, depending on the run. C236 is what holds."
  },
  {
   "property": "C238",
   "status": "proved",
   "theorems": [
    "parameter_info_complete"
   ],
   "note": ""
  },
  {
   "property": "C239",
   "status": "partial",
   "theorems": [
    "parameter_lost_refuted"
   ],
   "note": "False of the code: names 1a and _1a get the same key; one parameter is lost without an error. C238 is what holds."
  },
  {
   "property": "C24",
   "status": "proved",
   "theorems": [
    "tabread_in_bounds",
    "tabwrite_boundary",
    "tabwrite_in_bounds"
   ],
   "note": ""
  },
  {
   "property": "C240",
   "status": "proved",
   "theorems": [
    "name_check_exact"
   ],
   "note": ""
  },
  {
   "property": "C241",
   "status": "partial",
   "theorems": [
    "dpf_enumerators_clash_refuted"
   ],
   "note": "False of the code: inputs and outputs are checked separately, but share an enumeration."
  },
  {
   "property": "C242",
   "status": "proved",
   "theorems": [
    "plugin_value_is_the_last"
   ],
   "note": ""
  },
  {
   "property": "C243",
   "status": "proved",
   "theorems": [
    "new_context_gets_all_values"
   ],
   "note": ""
  },
  {
   "property": "C244",
   "status": "partial",
   "theorems": [
    "automation_lost_refuted"
   ],
   "note": "False of the code: with one parameter the queue has 2 KB; after 57 values without a block the next one is dropped, though getParameterValue returns it. C243 is what holds."
  },
  {
   "property": "C245",
   "status": "proved",
   "theorems": [
    "print_hook_stays_in_its_buffer",
    "print_hook_prints_label_and_message"
   ],
   "note": ""
  },
  {
   "property": "C246",
   "status": "partial",
   "theorems": [
    "print_hook_long_messages_refuted"
   ],
   "note": "False of the code: label and message may take 64 bytes with the space, leaving no room for the end of the string; the log reads past the buffer. C245 is what holds."
  },
  {
   "property": "C247",
   "status": "proved",
   "theorems": [
    "dpf_print_hook_prints_the_message"
   ],
   "note": ""
  },
  {
   "property": "C248",
   "status": "partial",
   "theorems": [
    "dpf_print_hook_label_refuted",
    "dpf_print_hook_long_messages_refuted"
   ],
   "note": "False of the code: strncpy and strcpy return their first argument, so the label and the space are overwritten; longer messages have no end, and bytes are printed that were never written. C247 is what holds."
  },
  {
   "property": "C249",
   "status": "proved",
   "theorems": [
    "lookup_finds_the_visible",
    "lookup_nearest_first"
   ],
   "note": ""
  },
  {
   "property": "C25",
   "status": "proved",
   "theorems": [
    "del1_sse_correct",
    "del1_neon_correct",
    "del1_scalar_correct"
   ],
   "note": ""
  },
  {
   "property": "C250",
   "status": "proved",
   "theorems": [
    "tables_loaded_iff_names_differ",
    "table_name_means_one_table"
   ],
   "note": ""
  },
  {
   "property": "C251",
   "status": "proved",
   "theorems": [
    "table_dictionary_complete"
   ],
   "note": ""
  },
  {
   "property": "C252",
   "status": "partial",
   "theorems": [
    "table_lost_refuted"
   ],
   "note": "False of the code: tables 1a and _1a get the same key; the second is missing in the program. C251 is what holds."
  },
  {
   "property": "C253",
   "status": "proved",
   "theorems": [
    "board_accepts_iff"
   ],
   "note": ""
  },
  {
   "property": "C254",
   "status": "proved",
   "theorems": [
    "input_reads_its_component"
   ],
   "note": ""
  },
  {
   "property": "C255",
   "status": "proved",
   "theorems": [
    "every_parameter_connected"
   ],
   "note": ""
  },
  {
   "property": "C256",
   "status": "proved",
   "theorems": [
    "last_name_wins"
   ],
   "note": ""
  },
  {
   "property": "C257",
   "status": "partial",
   "theorems": [
    "every_parameter_connected_refuted"
   ],
   "note": "False of the code: receivers knob1 and ctrl (an alias of knob1) in one patch: the first gets no values, and there is no error. C255 and C256 are what holds."
  },
  {
   "property": "C258",
   "status": "proved",
   "theorems": [
    "board_errors"
   ],
   "note": ""
  },
  {
   "property": "C259",
   "status": "partial",
   "theorems": [
    "wrong_direction_reported_refuted",
    "direction_never_tested"
   ],
   "note": "False of the code: the components have the directions in and out, the test compares with input and output, so a led as an input ends in KeyError 'get'. Only CV outputs are tested (direction_never_tested)."
  },
  {
   "property": "C26",
   "status": "proved",
   "theorems": [
    "samphold_sse_correct",
    "samphold_scalar_correct"
   ],
   "note": ""
  },
  {
   "property": "C260",
   "status": "proved",
   "theorems": [
    "alias_exact",
    "alias_any_case"
   ],
   "note": ""
  },
  {
   "property": "C261",
   "status": "proved",
   "theorems": [
    "components_kept_iff_used"
   ],
   "note": ""
  },
  {
   "property": "C262",
   "status": "proved",
   "theorems": [
    "output_reaches_its_component",
    "other_messages_change_nothing"
   ],
   "note": ""
  },
  {
   "property": "C263",
   "status": "partial",
   "theorems": [
    "names_told_apart_refuted"
   ],
   "note": "False of the code: pitch_attack1 and noisevolume have the same hash; as outputs of a Daisy program both leds change. C262 is what holds."
  },
  {
   "property": "C264",
   "status": "partial",
   "theorems": [
    "cv_channel_refuted"
   ],
   "note": "False of the code: a CV output env1_cv2 drives the first channel, because 1 occurs in its name. Not a problem with the names cvout1 and cvout2 of the boards that come with hvcc (example beside the theorem)."
  },
  {
   "property": "C265",
   "status": "proved",
   "theorems": [
    "rate_and_block"
   ],
   "note": ""
  },
  {
   "property": "C266",
   "status": "proved",
   "theorems": [
    "owl_generated_iff"
   ],
   "note": ""
  },
  {
   "property": "C267",
   "status": "partial",
   "theorems": [
    "channel_names_refuted"
   ],
   "note": "False of the code: the tuple of such a receiver has no default, and the template subtracts from None: no wrapper is generated for any patch with such a receiver."
  },
  {
   "property": "C268",
   "status": "proved",
   "theorems": [
    "owl_block_exact"
   ],
   "note": ""
  },
  {
   "property": "C269",
   "status": "proved",
   "theorems": [
    "owl_values_in_range"
   ],
   "note": "Exact arithmetic."
  },
  {
   "property": "C27",
   "status": "proved",
   "theorems": [
    "planar_rendering",
    "interleaved_rendering",
    "interleaved_bad_length"
   ],
   "note": ""
  },
  {
   "property": "C270",
   "status": "partial",
   "theorems": [
    "owl_shared_key_refuted"
   ],
   "note": "False of the code: the macros of the limits have one name for input and output, the last definition counts. C268 and C269 are what holds."
  },
  {
   "property": "C271",
   "status": "proved",
   "theorems": [
    "owl_send_exact"
   ],
   "note": ""
  },
  {
   "property": "C272",
   "status": "proved",
   "theorems": [
    "owl_buttons_exact",
    "owl_other_buttons"
   ],
   "note": ""
  },
  {
   "property": "C273",
   "status": "proved",
   "theorems": [
    "system_answers",
    "system_one_answer"
   ],
   "note": ""
  },
  {
   "property": "C274",
   "status": "partial",
   "theorems": [
    "system_stops_iff",
    "system_any_message_refuted"
   ],
   "note": "False of the code: the message [table(, alone or with only the name of a table, reads past its end (an assertion; undefined without). Proved: exactly these."
  },
  {
   "property": "C275",
   "status": "partial",
   "theorems": [
    "table_needs_name_refuted",
    "table_unknown_silent"
   ],
   "note": "False of the code: a number whose bits are the table's hash is taken for its name. Proved: a value whose number no table has is not answered."
  },
  {
   "property": "C276",
   "status": "partial",
   "theorems": [
    "system_time_exact",
    "system_time_refuted"
   ],
   "note": "False of the code: the time is converted to float, exact only up to sample 2^24 (under six minutes at 48 kHz). Proved up to there."
  },
  {
   "property": "C277",
   "status": "proved",
   "theorems": [
    "print_calls_hook",
    "print_without_hook"
   ],
   "note": ""
  },
  {
   "property": "C278",
   "status": "proved",
   "theorems": [
    "tabhead_reports"
   ],
   "note": ""
  },
  {
   "property": "C28",
   "status": "proved",
   "theorems": [
    "rpole_vector_correct",
    "rpole_scalar_correct",
    "cpole_vector_correct",
    "cpole_scalar_correct",
    "biquad_correct"
   ],
   "note": "Over every commutative ring."
  },
  {
   "property": "C29",
   "status": "proved",
   "theorems": [
    "biquad_k_correct"
   ],
   "note": "all four builds, every coefficient set, every history with coefficient messages"
  },
  {
   "property": "C30",
   "status": "proved",
   "theorems": [
    "phasor_wrap_terminates_iff",
    "phasor_wrap_result",
    "phasor_phase_message",
    "phasor_range",
    "phasor_sample_range",
    "phasor_avx_range",
    "phasor_k_avx_range"
   ],
   "note": ""
  },
  {
   "property": "C31",
   "status": "proved",
   "theorems": [
    "line_segment_shape",
    "line_sse_neon",
    "line_scalar",
    "line_avx_calm"
   ],
   "note": ""
  },
  {
   "property": "C32",
   "status": "proved",
   "theorems": [
    "compiled_patch_computes_its_dataflow",
    "signals_are_unique"
   ],
   "note": "for every reduced nested patch without feedback, every processing function; compilation never fails, only declared buffers are used, outlets of one object never share a buffer"
  },
  {
   "property": "C33",
   "status": "proved",
   "theorems": [
    "ordering_terminates",
    "ordering_sources_first",
    "process_list_order"
   ],
   "note": "termination also with feedback; order across subpatch boundaries; the feedback boundary is C46"
  },
  {
   "property": "C34",
   "status": "proved",
   "theorems": [
    "several_connections_are_summed",
    "patch_has_signals",
    "compiled_patch_computes_original"
   ],
   "note": "for every nested reduced patch without feedback; end to end with buffer assignment: the compiled process list computes the signals of the patch before the rewritings"
  },
  {
   "property": "C35",
   "status": "proved",
   "theorems": [
    "fused_product_has_one_reader",
    "fused_patch_same_signals",
    "compiled_patch_computes_original"
   ],
   "note": ""
  },
  {
   "property": "C36",
   "status": "proved",
   "theorems": [
    "named_message_reaches_receivers",
    "unknown_name_ignored",
    "send_reaches_receivers",
    "priority_order_unique"
   ],
   "note": "public receivers (all receivers of Pd patches)"
  },
  {
   "property": "C37",
   "status": "proved",
   "theorems": [
    "switchcase_by_hash"
   ],
   "note": "labels with distinct keys (others do not compile); message without a selected element: C52"
  },
  {
   "property": "C38",
   "status": "proved",
   "theorems": [
    "slice_windows"
   ],
   "note": "float to int conversion is a parameter; histories with a negative start are outside the property (undefined behaviour, witness)"
  },
  {
   "property": "C39",
   "status": "proved",
   "theorems": [
    "convolution_is_fir"
   ],
   "note": "Any ring, builds NONE/SSE/NEON; the setup covers what libs/heavy/conv~.pd does (size 0, then the table size from a loadbang)."
  },
  {
   "property": "C40",
   "status": "proved",
   "theorems": [
    "envelope_reports"
   ],
   "note": "For every ring, build, weight table, window <= 2^24 and period with window <= 2 period (or a memcpy that behaves like memmove) and every stream of vectors: init succeeds, no out of bounds access, and the reports are exactly the specified ones. The decibel conversion and the message itself are not modelled."
  },
  {
   "property": "C41",
   "status": "proved",
   "theorems": [
    "message_order_preserved",
    "message_effects_unique"
   ],
   "note": "Objects with signal inlets and objects that become several objects are not in the model; non-terminating message cascades have no effects to compare."
  },
  {
   "property": "C42",
   "status": "proved",
   "theorems": [
    "arguments_substituted",
    "unset_variable_raises"
   ],
   "note": ""
  },
  {
   "property": "C43",
   "status": "proved",
   "theorems": [
    "host_messages_in_order",
    "records_scheduled_in_order"
   ],
   "note": "Any interleaving of sender and reader; messages whose size is a multiple of four (others: C02). Delay is taken in samples. Record addresses abstracted to one base (symbol pointers are record-relative)."
  },
  {
   "property": "C44",
   "status": "proved",
   "theorems": [
    "sent_messages_returned"
   ],
   "note": ""
  },
  {
   "property": "C45",
   "status": "proved",
   "theorems": [
    "phasor_vector_phase",
    "phasor_scalar_phase",
    "phasor_k_vector_phase",
    "phasor_k_scalar_phase"
   ],
   "note": ""
  },
  {
   "property": "C46",
   "status": "partial",
   "theorems": [
    "control_feedback_order_refuted"
   ],
   "note": "The property is false of the code: get_parent_order follows message connections too, so an analyser whose messages feed back to its source is ordered before it and reads silence (witness). Proved when there is no feedback at all."
  },
  {
   "property": "C47",
   "status": "proved",
   "theorems": [
    "compiled_patch_computes_its_dataflow"
   ],
   "note": ""
  },
  {
   "property": "C48",
   "status": "proved",
   "theorems": [
    "slice_size_without_symbols"
   ],
   "note": ""
  },
  {
   "property": "C49",
   "status": "proved",
   "theorems": [
    "pack_latest_values"
   ],
   "note": "symbols on right inlets: C53"
  },
  {
   "property": "C50",
   "status": "proved",
   "theorems": [
    "var_stores_latest",
    "var_spec_total",
    "if_routes",
    "cast_converts"
   ],
   "note": ""
  },
  {
   "property": "C51",
   "status": "proved",
   "theorems": [
    "message_box_substitutes"
   ],
   "note": "missing arguments: C53"
  },
  {
   "property": "C52",
   "status": "proved",
   "theorems": [
    "switchcase_by_value"
   ],
   "note": ""
  },
  {
   "property": "C53",
   "status": "partial",
   "theorems": [
    "pack_symbol_refuted",
    "slice_negative_start_refuted",
    "message_box_missing_argument_refuted"
   ],
   "note": "False: symbols on right pack inlets and missing box arguments trip an assertion or are undefined (witnesses); the rest of the behaviour is C49 and C51."
  },
  {
   "property": "C54",
   "status": "proved",
   "theorems": [
    "code_name_clash"
   ],
   "note": ""
  },
  {
   "property": "C55",
   "status": "proved",
   "theorems": [
    "pd_arguments_substituted"
   ],
   "note": ""
  },
  {
   "property": "C56",
   "status": "partial",
   "theorems": [
    "prefix_names_refuted",
    "pd_prefix_references_refuted"
   ],
   "note": "False: with arguments f and f2, $f2 becomes the value of f followed by 2; in Pd the word \\\\$1-\\\\$10 depends on Python's set order; an unset variable raises RuntimeError (unset_variable_raises, C42) instead of falling back to the default."
  },
  {
   "property": "C57",
   "status": "partial",
   "theorems": [
    "self_connection_lost_refuted",
    "self_feeding_compile_refuted"
   ],
   "note": "False: a wire from an object to itself is dropped; an object fed back through [t a] compiles or raises depending on the order of the objects (witnesses)."
  },
  {
   "property": "C58",
   "status": "partial",
   "theorems": [
    "envelope_overlap_refuted"
   ],
   "note": "False of the code: whenever 2 period < window the first full window makes sEnv_sendMessage call hv_memcpy between overlapping ranges (HvSignalEnvelope.c:78), undefined behaviour; [env~ 1024 256] reaches it (overlap_reached)."
  },
  {
   "property": "C59",
   "status": "partial",
   "theorems": [
    "conv_longer_ring_refuted",
    "conv_larger_table_refuted",
    "conv_smaller_table_refuted",
    "conv_avx_refuted"
   ],
   "note": "False of the code: with a ring longer than the filter (allowed by the assertion m >= n) the first loop reads beyond the coefficients; selecting a larger table trips the assertion; selecting a smaller one keeps the ring's head, which is then outside the shrunk ring; AVX has no implementation."
  },
  {
   "property": "C60",
   "status": "partial",
   "theorems": [
    "pool_never_exhausted_refuted"
   ],
   "note": "False of the code: chunks migrate to the wrong free list; witness."
  },
  {
   "property": "C61",
   "status": "partial",
   "theorems": [
    "process_split_refuted"
   ],
   "note": "False of the code: one bang per render call, not per block; witness."
  },
  {
   "property": "C62",
   "status": "partial",
   "theorems": [
    "message_large_symbol_refuted"
   ],
   "note": "False of the code: the 16 bit size wraps; witness."
  },
  {
   "property": "C63",
   "status": "partial",
   "theorems": [
    "delay_clear_after_flush_feedback_refuted",
    "delay_flush_breaks_queue_order_refuted"
   ],
   "note": "False of the code: after a flush with feedback the rescheduled message can no longer be cleared; flush rewrites a queued timestamp in place, so the queue is no longer sorted. Witnesses."
  },
  {
   "property": "C64",
   "status": "partial",
   "theorems": [
    "random_seed_stuck_refuted",
    "random_reseed_zero_refuted",
    "random_reseed_negative_refuted"
   ],
   "note": "False of the code: seed -5 (which the compiler may choose) and a 0 seed message lock it up; negative seed messages convert out of range. Witnesses."
  },
  {
   "property": "C65",
   "status": "partial",
   "theorems": [
    "binop_mod_unipolar_trap_refuted",
    "binop_huge_operand_refuted"
   ],
   "note": "False of the code: unipolar modulus by 1/2 divides by zero, huge operands, negative shifts. Witnesses; the exact boundary is C20."
  },
  {
   "property": "C66",
   "status": "partial",
   "theorems": [
    "mod_unipolar_large_refuted"
   ],
   "note": "False of the code: the result can equal |k| after rounding; witness."
  },
  {
   "property": "C67",
   "status": "partial",
   "theorems": [
    "table_resize_length_refuted",
    "table_resize_stale_refuted",
    "table_resize_huge_refuted"
   ],
   "note": "False of the code: growing within the padding keeps the old length, shrink and grow resurrects old samples, from 2^30 floats the byte count wraps. Witnesses."
  },
  {
   "property": "C68",
   "status": "partial",
   "theorems": [
    "table_data_overflow_refuted",
    "table_final_data_resize_refuted"
   ],
   "note": "False of the code: the block is one vector too small (mirror writes past it); static data is passed to realloc. Witnesses."
  },
  {
   "property": "C69",
   "status": "partial",
   "theorems": [
    "tabwrite_stale_index_refuted"
   ],
   "note": "False of the code: the index is checked when it is set, not when the value is written; witness."
  },
  {
   "property": "C70",
   "status": "partial",
   "theorems": [
    "del1_avx_refuted",
    "del1_avx_other_lanes_partial"
   ],
   "note": "False of the code: lane 4 of every block is wrong (witness); all other lanes are proved right."
  },
  {
   "property": "C71",
   "status": "partial",
   "theorems": [
    "samphold_neon_refuted",
    "samphold_neon_partial",
    "samphold_avx_refuted"
   ],
   "note": "False of the code: NEON is wrong for five of sixteen trigger patterns (missing break; proved right for the other eleven), AVX is not implemented (assertion)."
  },
  {
   "property": "C72",
   "status": "partial",
   "theorems": [
    "interleaved_avx_stereo_does",
    "interleaved_avx_stereo_refuted",
    "interleaved_length_check_refuted"
   ],
   "note": "False of the code: on AVX frames 2,3 and 4,5 of every eight are exchanged (what it does is proved); the entry check lets non-multiples through (out of bounds read). Witnesses."
  },
  {
   "property": "C73",
   "status": "partial",
   "theorems": [
    "rpole_avx_partial",
    "rpole_avx_refuted",
    "cpole_avx_refuted"
   ],
   "note": "False of the code: the real pole inherits the broken delay (proved right given a working delay); the complex pole drops its previous output and never writes its second output. Witnesses."
  },
  {
   "property": "C74",
   "status": "partial",
   "theorems": [
    "phasor_wrap_hangs_refuted",
    "phasor_phase_integer_refuted",
    "phasor_scalar_nyquist_refuted"
   ],
   "note": "False of the code: phases from 2^24+4 on hang the loop; integer phases and scalar frequencies from half the sample rate on have undefined conversions. Witnesses."
  },
  {
   "property": "C75",
   "status": "partial",
   "theorems": [
    "line_hold_refuted",
    "line_scalar_overflow_refuted",
    "line_restart_refuted",
    "line_avx_overshoot_refuted"
   ],
   "note": "False of the code: the counter wraps after 2^31 samples and the ramp starts again; AVX overshoots when interrupted near the end. Witnesses."
  },
  {
   "property": "C76",
   "status": "partial",
   "theorems": [
    "fms_armv8_sign_refuted"
   ],
   "note": "False of the code: the fused kernel computes c - a*b instead of a*b - c; witness."
  },
  {
   "property": "C77",
   "status": "partial",
   "theorems": [
    "sent_message_overread_refuted",
    "sent_message_exact_block_refuted",
    "sent_symbol_stale_refuted"
   ],
   "note": "False of the code: memcpy copies 8 bytes too many and can leave the queue memory; a buffer of the exact size is refused; symbols point into the consumed record. Witnesses."
  },
  {
   "property": "C78",
   "status": "partial",
   "theorems": [
    "phasor_avx_prefix",
    "phasor_builds_disagree_refuted",
    "phasor_k_overflow_refuted",
    "phasor_avx_wrap_refuted",
    "phasor_avx_frequency_refuted"
   ],
   "note": "False of the code: AVX wrapping halves the excess and a frequency message halves the phase (its prefix sum alone is right); 4*step overflows; vector builds round and scalar builds truncate. Witnesses."
  },
  {
   "property": "C79",
   "status": "partial",
   "theorems": [
    "pass_through_subpatch_refuted",
    "woven_subpatches_refuted"
   ],
   "note": "False of the code: a pass-through subpatch and mutually connected subpatches read silence; witnesses."
  },
  {
   "property": "C80",
   "status": "partial",
   "theorems": [
    "slice_symbol_size_refuted"
   ],
   "note": "False of the code: the size counts no texts; witness: 33 bytes needed, 24 reported."
  },
  {
   "property": "C81",
   "status": "partial",
   "theorems": [
    "switchcase_refuted"
   ],
   "note": "False of the code: the word symbol alone, -0.0, the text bang, a float with the bits of a hash; witnesses."
  },
  {
   "property": "C82",
   "status": "partial",
   "theorems": [
    "digit_names_collide_refuted"
   ],
   "note": "False of the code: 1 and _1 share one entry and messages to 1 are dropped; witness."
  },
  {
   "property": "C83",
   "status": "proved",
   "theorems": [
    "binop_computes",
    "binop_history_values",
    "binop_constant_values"
   ],
   "note": "powf and atan2f are the C library's (parameters of the model). When an operator answers at all is C23."
  },
  {
   "property": "C84",
   "status": "proved",
   "theorems": [
    "unop_computes_value"
   ],
   "note": "The transcendental functions are parameters of the model."
  },
  {
   "property": "C85",
   "status": "proved",
   "theorems": [
    "sigtab_record_play",
    "sigtab_tables_sound"
   ],
   "note": "sigtab_tables_sound: every table made by hTable_init / hTable_resize meets the hypothesis."
  },
  {
   "property": "C86",
   "status": "proved",
   "theorems": [
    "sigtab_linear_checked"
   ],
   "note": "Positions from 2^32 - N are C90."
  },
  {
   "property": "C87",
   "status": "proved",
   "theorems": [
    "sigtab_stoppable_in_bounds"
   ],
   "note": ""
  },
  {
   "property": "C88",
   "status": "proved",
   "theorems": [
    "sigtab_plays_once"
   ],
   "note": ""
  },
  {
   "property": "C89",
   "status": "proved",
   "theorems": [
    "sigtab_random_access"
   ],
   "note": ""
  },
  {
   "property": "C90",
   "status": "partial",
   "theorems": [
    "sigtab_reader_wrap_refuted",
    "sigtab_writer_stop_refuted",
    "sigtab_stoppable_write_refuted",
    "sigtab_unknown_table_refuted",
    "sigtab_end_refuted",
    "sigtab_no_bang_refuted"
   ],
   "note": "False of the code: each theorem is a message sequence that breaks it. What holds is C85-C89."
  },
  {
   "property": "C91",
   "status": "proved",
   "theorems": [
    "delay_line_delays"
   ],
   "note": "The control wiring of the two .pd patches is transcribed by hand; time is unbounded; the ms to samples conversion is outside."
  },
  {
   "property": "C92",
   "status": "partial",
   "theorems": [
    "delay_too_long_refuted",
    "delay_longer_refuted",
    "delay_full_refuted",
    "delay_fraction_refuted",
    "delay_zero_length_refuted"
   ],
   "note": "False of the code: each theorem is a run that breaks it. What holds is C91."
  },
  {
   "property": "C93",
   "status": "proved",
   "theorems": [
    "expr_parsed_as_written"
   ],
   "note": "Arpeggio's matching rules (ordered choice, greedy repetition, white space before terminals) are transcribed; regular expressions on ASCII text."
  },
  {
   "property": "C94",
   "status": "partial",
   "theorems": [
    "expr_trailing_text_refuted"
   ],
   "note": "False of the code: the rest behind the longest readable prefix is dropped."
  },
  {
   "property": "C95",
   "status": "partial",
   "theorems": [
    "expr_comparison_precedence_refuted"
   ],
   "note": "False of the code: 1<=2<3 is read as 1<=(2<3)."
  },
  {
   "property": "C96",
   "status": "proved",
   "theorems": [
    "expr_tilde_code_correct"
   ],
   "note": "The vector functions of HvMath.h are parameters; a constant without a decimal point is loaded by __hv_var_k_i, a parameter too (it does not compile for AVX and SSE). More buffers: C98; a lone variable or constant: C99."
  },
  {
   "property": "C97",
   "status": "proved",
   "theorems": [
    "expr_tilde_end_to_end"
   ],
   "note": "As C93 and C96."
  },
  {
   "property": "C98",
   "status": "partial",
   "theorems": [
    "expr_tilde_many_buffers_refuted"
   ],
   "note": "False of the code: a sum of twelve constants nested to the right computes 130 instead of 66."
  },
  {
   "property": "C99",
   "status": "partial",
   "theorems": [
    "expr_tilde_bare_refuted"
   ],
   "note": "False of the code: no code is generated, the outlet keeps what its buffer held."
  }
 ]
}