{
 "claims": [
  {
   "property": "C01",
   "status": "proved",
   "theorems": [
    "C01_parse_total"
   ],
   "note": "Proved as stated."
  },
  {
   "property": "C02",
   "status": "proved",
   "theorems": [
    "C02_parse_exact",
    "C02_parse_len",
    "C02_entry_exact"
   ],
   "note": "Proved as stated."
  },
  {
   "property": "C03",
   "status": "proved",
   "theorems": [
    "C03_parse_local",
    "C03_entry_local"
   ],
   "note": "Proved as stated."
  },
  {
   "property": "C04",
   "status": "proved",
   "theorems": [
    "C04_storage_header_roundtrip",
    "C04_std_header_roundtrip",
    "C04_ext_header_roundtrip",
    "C04_bytes_roundtrip"
   ],
   "note": "Proved as stated."
  },
  {
   "property": "C05",
   "status": "proved",
   "theorems": [
    "C05_htyp_build_query",
    "C05_htyp_query_build"
   ],
   "note": "Proved as stated."
  },
  {
   "property": "C06",
   "status": "proved",
   "theorems": [
    "C06_accessors_layout"
   ],
   "note": "Proved as stated."
  },
  {
   "property": "C07",
   "status": "partial",
   "theorems": [
    "C07_accessors_panic_exactly_partial",
    "C07_refuted"
   ],
   "note": "False as stated: the accessors can panic on a parsed message (C07_refuted). Proved: the exact condition for each accessor (C07_accessors_panic_exactly_partial)."
  },
  {
   "property": "C08",
   "status": "partial",
   "theorems": [
    "C08_decode_exact_partial",
    "C08_refuted"
   ],
   "note": "False as stated: the info mask drops bits 5 and 7 (C08_refuted: 'warn' decodes as 'fatal'). Proved: the exact decoding of every byte."
  },
  {
   "property": "C09",
   "status": "partial",
   "theorems": [
    "C09_create_info_exact_partial",
    "C09_refuted"
   ],
   "note": "False as stated, for every code layout (C09_refuted). Proved: the exact condition under which the round trip holds."
  },
  {
   "property": "C10",
   "status": "partial",
   "theorems": [
    "C10_len_bound_partial",
    "C10_refuted"
   ],
   "note": "False as stated: max_len is 65535 and a stored message can have 65551 bytes (C10_refuted). Proved: the true bounds, and the claim for DltEntry."
  },
  {
   "property": "C11",
   "status": "proved",
   "theorems": [
    "C11_iteration_total"
   ],
   "note": "Proved as stated."
  },
  {
   "property": "C12",
   "status": "proved",
   "theorems": [
    "C12_iteration_genuine",
    "C12_nothing_passed_over"
   ],
   "note": "Proved as stated."
  },
  {
   "property": "C13",
   "status": "proved",
   "theorems": [
    "C13_file_read"
   ],
   "note": "Proved as stated."
  },
  {
   "property": "C14",
   "status": "proved",
   "theorems": [
    "C14_garbage_skipped"
   ],
   "note": "Proved as stated."
  },
  {
   "property": "C15",
   "status": "proved",
   "theorems": [
    "C15_truncation"
   ],
   "note": "Proved as stated."
  },
  {
   "property": "C16",
   "status": "partial",
   "theorems": [
    "C16_corruption_stops_partial",
    "C16_refuted"
   ],
   "note": "False as stated: the iteration ends at the first marker whose message does not read (C16_refuted). Proved: everything in front of it is still yielded, nothing behind it."
  },
  {
   "property": "C17",
   "status": "partial",
   "theorems": [
    "C17_sequential_fused",
    "C17_search_fused_partial",
    "C17_read_fused",
    "C17_search_calls_partial",
    "C17_search_refuted"
   ],
   "note": "False for the search iterator (C17_search_refuted): each call after the end adds 4 to its offset, and when that overflows it panics or starts over; this takes up to 2^62 calls, or a start offset near 2^64. Proved: it stays at its end until then; the other two stay there for ever."
  },
  {
   "property": "C18",
   "status": "proved",
   "theorems": [
    "C18_search_first"
   ],
   "note": "Proved as stated."
  },
  {
   "property": "C19",
   "status": "proved",
   "theorems": [
    "C19_sequential_prefix_of_search"
   ],
   "note": "Proved as stated."
  },
  {
   "property": "C20",
   "status": "proved",
   "theorems": [
    "C20_reverse_all"
   ],
   "note": "Proved as stated."
  },
  {
   "property": "C21",
   "status": "partial",
   "theorems": [
    "C21_reverse_none_state_partial",
    "C21_refuted"
   ],
   "note": "False as stated: one more call after None recurses about 2^64 / 4 times (C21_refuted, for every message-free slice). Proved: the state after the first None."
  },
  {
   "property": "C22",
   "status": "proved",
   "theorems": [
    "C22_search_marker_first",
    "C22_search_last_marker_last"
   ],
   "note": "Proved as stated."
  },
  {
   "property": "C23",
   "status": "proved",
   "theorems": [
    "C23_read_maximal_run"
   ],
   "note": "Proved as stated."
  },
  {
   "property": "C24",
   "status": "proved",
   "theorems": [
    "C24_grep_sound"
   ],
   "note": "Proved as stated."
  },
  {
   "property": "C25",
   "status": "partial",
   "theorems": [
    "C25_grep_no_panic_partial",
    "C25_grep_terminates_partial",
    "C25_refuted"
   ],
   "note": "False as stated: diverges for patterns with empty matches (C25_refuted). Proved: no panic for any pattern, termination if the pattern has no empty match in the slice."
  },
  {
   "property": "C26",
   "status": "partial",
   "theorems": [
    "C26_grep_increasing_partial",
    "C26_refuted"
   ],
   "note": "False as stated for patterns with empty matches (C26_refuted). Proved for the others."
  },
  {
   "property": "C27",
   "status": "partial",
   "theorems": [
    "C27_grep_exact_partial",
    "C27_literal_exact_partial",
    "C27_refuted"
   ],
   "note": "False as stated in both directions (C27_refuted): header bytes match too, and embedded markers hide matches. Proved: exactness on files without embedded markers, with 'behind the marker' in place of 'payload', for patterns without empty or crossing matches; and its instance for literals."
  },
  {
   "property": "C28",
   "status": "partial",
   "theorems": [
    "C28_capture_sound_partial",
    "C28_capture_terminates_partial",
    "C28_refuted"
   ],
   "note": "False as stated: the cursor moves to offset + end of the match although the end is already absolute, so messages are passed over (C28_refuted). Proved: soundness of every item, no panic, termination when matches and groups are not empty."
  },
  {
   "property": "C29",
   "status": "proved",
   "theorems": [
    "C29_contained_by_total_sound",
    "C29_contained_by_exact"
   ],
   "note": "Proved as stated."
  },
  {
   "property": "C30",
   "status": "proved",
   "theorems": [
    "C30_finds_message",
    "C30_none_between"
   ],
   "note": "Proved as stated."
  },
  {
   "property": "C31",
   "status": "proved",
   "theorems": [
    "C31_partition_prefix"
   ],
   "note": "Proved as stated."
  },
  {
   "property": "C32",
   "status": "partial",
   "theorems": [
    "C32_whole_messages_partial",
    "C32_refuted"
   ],
   "note": "False as stated: for messages over 65536 bytes a boundary can fall inside (C32_refuted). Proved for messages of at most 65536 bytes."
  },
  {
   "property": "C33",
   "status": "partial",
   "theorems": [
    "C33_covers_partial",
    "C33_refuted"
   ],
   "note": "False as stated (C33_refuted): 8 equal messages in 3 partitions lose two messages. Proved under an explicit size condition."
  },
  {
   "property": "C34",
   "status": "partial",
   "theorems": [
    "C34_loss_partial",
    "C34_parallel_count_partial",
    "C34_refuted"
   ],
   "note": "False as stated (C34_refuted, for every schedule). Proved: never more than the sequential count, equal if the partitions cover the file, in particular under the size condition of C33. Whatever is lost, the parallel command reports what the sequential command reports on the file without its last part, which is shorter than a share of the file if no message is longer than a share (C34_loss_partial)."
  },
  {
   "property": "C35",
   "status": "proved",
   "theorems": [
    "C35_filter_map_chain",
    "C35_any_chain"
   ],
   "note": "Proved as stated."
  },
  {
   "property": "C36",
   "status": "partial",
   "theorems": [
    "C36_groupby_runs_partial",
    "C36_groupby_ends_related",
    "C36_refuted"
   ],
   "note": "False as stated for relations that are not reflexive (C36_refuted). Proved for relations that are reflexive on the elements."
  },
  {
   "property": "C37",
   "status": "proved",
   "theorems": [
    "C37_merged",
    "C37_split_timestamp",
    "C37_seconds",
    "C37_timestamps"
   ],
   "note": "Proved as stated."
  },
  {
   "property": "C38",
   "status": "partial",
   "theorems": [
    "C38_merge_coverage_partial",
    "C38_refuted"
   ],
   "note": "Disjointness is false in general (C38_refuted). Proved: same points, ordered; disjoint if the input is ordered by start."
  },
  {
   "property": "C39",
   "status": "proved",
   "theorems": [
    "C39_split"
   ],
   "note": "Proved as stated."
  },
  {
   "property": "C40",
   "status": "proved",
   "theorems": [
    "C40_fold",
    "C40_count",
    "C40_sum",
    "C40_collect",
    "C40_fork"
   ],
   "note": "Proved as stated."
  },
  {
   "property": "C41",
   "status": "proved",
   "theorems": [
    "C41_pull_is_push",
    "C41_any_adapter"
   ],
   "note": "Proved as stated."
  },
  {
   "property": "C42",
   "status": "proved",
   "theorems": [
    "C42_parallel_sum",
    "C42_parallel_histogram",
    "C42_parallel_split"
   ],
   "note": "Proved as stated."
  },
  {
   "property": "C43",
   "status": "proved",
   "theorems": [
    "C43_message_size",
    "C43_message_size_file",
    "C43_payload_size",
    "C43_message_type",
    "C43_durations",
    "C43_split_timestamp",
    "C43_split_lifecycles",
    "C43_hello_world"
   ],
   "note": "Proved as stated."
  },
  {
   "property": "C44",
   "status": "partial",
   "theorems": [
    "C44_any_file_partial",
    "C44_complete_partial",
    "C44_text_partial",
    "C44_refuted"
   ],
   "note": "False as stated (C44_refuted, eleven commands). Proved: ten commands never panic; eight more if every message holds its announced fields; three more if moreover the ECU ids are UTF-8."
  },
  {
   "property": "C45",
   "status": "partial",
   "theorems": [
    "C45_one_core_partial",
    "C45_counts_partial",
    "C45_refuted",
    "C45_loss_partial"
   ],
   "note": "False as stated (C45_refuted). Proved: equality for one core; on covered files the number of periods differs by at most the number of cuts. Whatever is lost, the parallel command counts the periods of the file without its last part, and at most one more per border of parts; that part is shorter than a share of the file if no message is longer than a share (C45_loss_partial)."
  },
  {
   "property": "C46",
   "status": "partial",
   "theorems": [
    "C46_reads_back_partial",
    "C46_refuted"
   ],
   "note": "False as stated: chunks with a last line feed followed by 1024 or more bytes are written incompletely (C46_refuted). Proved for all other chunks and sizes up to 65517, within the 32 bit counter."
  },
  {
   "property": "C47",
   "status": "partial",
   "theorems": [
    "C47_terminates_partial",
    "C47_refuted"
   ],
   "note": "False as stated: payload size 0 never ends in a release build (C47_refuted). Proved for every other command line."
  },
  {
   "property": "C48",
   "status": "partial",
   "theorems": [
    "C48_length_partial",
    "C48_refuted"
   ],
   "note": "False as stated: above 65517 the length field is wrong in a release build and a debug build panics (C48_refuted). Proved up to 65517."
  },
  {
   "property": "C49",
   "status": "partial",
   "theorems": [
    "C49_mmap_is_the_file_partial",
    "C49_read_is_a_prefix_partial",
    "C49_refuted"
   ],
   "note": "False as stated: read_file reports success after a read error, and an empty file can be read but not mapped (C49_refuted). Proved: a mapped buffer is the file, a read buffer is a prefix and the file if no read failed."
  },
  {
   "property": "C50",
   "status": "partial",
   "theorems": [
    "C50_counts_agree_partial",
    "C50_refuted"
   ],
   "note": "False as stated (C50_refuted). Proved under the conditions of C27 if the pattern's matches are those of the literal."
  },
  {
   "property": "C51",
   "status": "partial",
   "theorems": [
    "C51_depth_partial",
    "C51_refuted"
   ],
   "note": "False: n unreadable markers in a row need n nested calls (C51_refuted). Proved: at most one nested call per four bytes left, for both search directions (C51_depth_partial)."
  },
  {
   "property": "C52",
   "status": "partial",
   "theorems": [
    "C52_ecu_counts_partial",
    "C52_refuted",
    "C52_loss_partial"
   ],
   "note": "False as stated (C52_refuted). Proved: never more than the sequential counts, equal if the partitions cover the file. Whatever is lost, the parallel command reports what the sequential command reports on the file without its last part, which is shorter than a share of the file if no message is longer than a share (C52_loss_partial)."
  },
  {
   "property": "C53",
   "status": "proved",
   "theorems": [
    "C53_main"
   ],
   "note": "Proved as stated."
  },
  {
   "property": "C54",
   "status": "partial",
   "theorems": [
    "C54_same_output_partial",
    "C54_refuted"
   ],
   "note": "False for empty files and read errors (C54_refuted). Proved for every other file."
  },
  {
   "property": "C55",
   "status": "proved",
   "theorems": [
    "C55_killed"
   ],
   "note": "Proved as stated."
  },
  {
   "property": "C56",
   "status": "proved",
   "theorems": [
    "C56_arguments"
   ],
   "note": "Proved as stated."
  },
  {
   "property": "C57",
   "status": "proved",
   "theorems": [
    "C57_append"
   ],
   "note": "Proved as stated."
  },
  {
   "property": "C58",
   "status": "proved",
   "theorems": [
    "C58_pipeline"
   ],
   "note": "Proved as stated."
  },
  {
   "property": "C59",
   "status": "proved",
   "theorems": [
    "C59_count",
    "C59_count_hello_world",
    "C59_count_hello_world_raw",
    "C59_grepit"
   ],
   "note": "Proved as stated."
  },
  {
   "property": "C60",
   "status": "proved",
   "theorems": [
    "C60_message_sizes",
    "C60_payload_sizes"
   ],
   "note": "Proved as stated."
  },
  {
   "property": "C61",
   "status": "proved",
   "theorems": [
    "C61_message_types"
   ],
   "note": "Proved as stated."
  },
  {
   "property": "C62",
   "status": "proved",
   "theorems": [
    "C62_histogram_timestamp",
    "C62_split_timestamp"
   ],
   "note": "Proved as stated."
  },
  {
   "property": "C63",
   "status": "proved",
   "theorems": [
    "C63_iter",
    "C63_itertools",
    "C63_histogram_lifecycles",
    "C63_split_lifecycles"
   ],
   "note": "Proved as stated."
  },
  {
   "property": "C64",
   "status": "proved",
   "theorems": [
    "C64_parallel_counts",
    "C64_par_iter",
    "C64_par_histogram_timestamp",
    "C64_par_split_timestamp"
   ],
   "note": "Proved as stated."
  },
  {
   "property": "C65",
   "status": "proved",
   "theorems": [
    "C65_sequential_exact"
   ],
   "note": "Proved as stated."
  },
  {
   "property": "C66",
   "status": "proved",
   "theorems": [
    "C66_search_exact"
   ],
   "note": "Proved as stated."
  },
  {
   "property": "C67",
   "status": "proved",
   "theorems": [
    "C67_grep_step_exact",
    "C67_grep_exact"
   ],
   "note": "Proved as stated."
  },
  {
   "property": "C68",
   "status": "proved",
   "theorems": [
    "C68_capture_exact"
   ],
   "note": "Proved as stated."
  },
  {
   "property": "C69",
   "status": "proved",
   "theorems": [
    "C69_groupby_exact"
   ],
   "note": "Proved as stated."
  },
  {
   "property": "C70",
   "status": "proved",
   "theorems": [
    "C70_partition_exact",
    "C70_partition_zero"
   ],
   "note": "Proved as stated."
  },
  {
   "property": "C71",
   "status": "proved",
   "theorems": [
    "C71_accessors_exact"
   ],
   "note": "Proved as stated."
  },
  {
   "property": "C72",
   "status": "proved",
   "theorems": [
    "C72_merge_exact",
    "C72_periods_exact"
   ],
   "note": "Proved as stated."
  },
  {
   "property": "C73",
   "status": "partial",
   "theorems": [
    "C73_merge_conserves_partial",
    "C73_refuted"
   ],
   "note": "False as stated: two items with the same key that do not merge, one is lost (C73_refuted). Proved: nothing is invented, and nothing is lost if merging keeps the key and items with the same key always merge."
  },
  {
   "property": "C74",
   "status": "proved",
   "theorems": [
    "C74_release",
    "C74_debug"
   ],
   "note": "Proved as stated."
  },
  {
   "property": "C75",
   "status": "proved",
   "theorems": [
    "C75_stop_pulled",
    "C75_stop_reduced",
    "C75_stop_in_chain"
   ],
   "note": "Proved as stated."
  },
  {
   "property": "C76",
   "status": "proved",
   "theorems": [
    "C76_dlt_well",
    "C76_test_well",
    "C76_sequential",
    "C76_search",
    "C76_backwards"
   ],
   "note": "Proved as stated."
  },
  {
   "property": "C77",
   "status": "proved",
   "theorems": [
    "C77_grep"
   ],
   "note": "Proved as stated."
  },
  {
   "property": "C78",
   "status": "proved",
   "theorems": [
    "C78_partition"
   ],
   "note": "Proved as stated."
  },
  {
   "property": "C79",
   "status": "partial",
   "theorems": [
    "C79_search_sound_partial",
    "C79_refuted"
   ],
   "note": "False: with a marker that overlaps itself the iterator steps over a marker and misses a value (C79_refuted; DLT's marker does not overlap itself). Proved: what it delivers can be read; for markers that do not overlap themselves C76_search is the full claim."
  },
  {
   "property": "C80",
   "status": "proved",
   "theorems": [
    "C80_text",
    "C80_usage",
    "C80_ending",
    "C80_count"
   ],
   "note": "Proved as stated."
  },
  {
   "property": "C81",
   "status": "proved",
   "theorems": [
    "C81_readable"
   ],
   "note": "Proved as stated."
  },
  {
   "property": "C82",
   "status": "proved",
   "theorems": [
    "C82_arguments",
    "C82_no_work",
    "C82_opening",
    "C82_split_timestamp",
    "C82_split_lifecycles",
    "C82_par_split_timestamp",
    "C82_par_iter"
   ],
   "note": "Proved as stated."
  },
  {
   "property": "C83",
   "status": "proved",
   "theorems": [
    "C83_ends"
   ],
   "note": "Proved as stated."
  },
  {
   "property": "C84",
   "status": "partial",
   "theorems": [
    "C84_adapted_partial",
    "C84_groupby_partial",
    "C84_iterators_partial",
    "C84_refuted"
   ],
   "note": "False for the reverse iterator (C84_refuted): asked again after its end it descends into more than 2^61 nested calls, and adapters do ask again. Proved for every iterator that stays at its end, and that the sequential, searching, contiguous, grep and capture iterators do."
  },
  {
   "property": "C85",
   "status": "partial",
   "theorems": [
    "C85_beginning_partial",
    "C85_survivors_partial",
    "C85_refuted"
   ],
   "note": "False if a write is taken in part and later ones go on (C85_refuted: short writes of large payloads are ignored). Proved for operating systems that take all, fail, or take a part and nothing more."
  },
  {
   "property": "C86",
   "status": "partial",
   "theorems": [
    "C86_all_taken_partial",
    "C86_success_partial",
    "C86_refuted",
    "C86_short_refuted",
    "C86_not_open_refuted"
   ],
   "note": "False (C86_refuted, C86_short_refuted, C86_not_open_refuted): errors of the last flush, a short write and a closed output are not noticed. Proved: complete if every write takes all; without an error at most one payload, 16 header bytes and the 1024 bytes of the buffer are missing."
  },
  {
   "property": "C87",
   "status": "proved",
   "theorems": [
    "C87_sequential",
    "C87_search",
    "C87_read",
    "C87_grep",
    "C87_capture",
    "C87_backward",
    "C87_contained",
    "C87_partition"
   ],
   "note": "Proved as stated."
  },
  {
   "property": "C88",
   "status": "partial",
   "theorems": [
    "C88_behind_partial",
    "C88_sequential_refuted",
    "C88_search_refuted"
   ],
   "note": "False for the last four offsets (C88_sequential_refuted: panics; C88_search_refuted: panics in a debug build, starts over in a release build). Proved for all others, and for the other three iterators for all offsets."
  },
  {
   "property": "C89",
   "status": "proved",
   "theorems": [
    "C89_cut"
   ],
   "note": "Proved as stated."
  },
  {
   "property": "C90",
   "status": "proved",
   "theorems": [
    "C90_overwritten",
    "C90_commands"
   ],
   "note": "Proved as stated."
  },
  {
   "property": "C91",
   "status": "proved",
   "theorems": [
    "C91_count",
    "C91_count_hello_world",
    "C91_sizes",
    "C91_payload_sizes",
    "C91_types"
   ],
   "note": "Proved as stated."
  },
  {
   "property": "C92",
   "status": "partial",
   "theorems": [
    "C92_search_cut_partial",
    "C92_refuted"
   ],
   "note": "False (C92_refuted): messages nested in the one that is cut appear. Proved: those of the file that end within the cut, and besides only such nested ones."
  },
  {
   "property": "C93",
   "status": "partial",
   "theorems": [
    "C93_beginning_partial",
    "C93_patient",
    "C93_full_disk",
    "C93_not_open_refuted",
    "C93_par_iter_refuted"
   ],
   "note": "False if standard output is not open (C93_not_open_refuted: nothing arrives, ends as usual) and, for what arrives with par_iter, if an error passes (C93_par_iter_refuted). Proved for open outputs and every command but par_iter, and for par_iter if errors last."
  },
  {
   "property": "C94",
   "status": "proved",
   "theorems": [
    "C94_command",
    "C94_program"
   ],
   "note": "For both widths of usize (with 32 bits all commands but histogram_timestamp and par_histogram_timestamp, whose report is C133). ToolsWord.v has the commands with machine arithmetic; proved equal to the unbounded ones."
  },
  {
   "property": "C95",
   "status": "proved",
   "theorems": [
    "C95_recordings"
   ],
   "note": "Several runs of dd_dlt appended to one file, as in test/test_gen.sh."
  },
  {
   "property": "C96",
   "status": "proved",
   "theorems": [
    "C96_unpack"
   ],
   "note": "Packing with dd_dlt any number of times and unpacking, as for nasty.dlt in test/test_gen.sh."
  },
  {
   "property": "C97",
   "status": "proved",
   "theorems": [
    "C97_input",
    "C97_pieces",
    "C97_total"
   ],
   "note": "InModel.v has read(2) as a history of events, BufReader and read_exact."
  },
  {
   "property": "C98",
   "status": "proved",
   "theorems": [
    "C98_read_file"
   ],
   "note": "std's choice of read sizes is an arbitrary positive oracle."
  },
  {
   "property": "C99",
   "status": "proved",
   "theorems": [
    "C99_report"
   ],
   "note": "The texts of panics and of the runtime's error message are not modelled."
  },
  {
   "property": "C100",
   "status": "proved",
   "theorems": [
    "C100_pieces",
    "C100_even",
    "C100_bounds",
    "C100_par_count",
    "C100_recorded"
   ],
   "note": "The exact numbers of messages per piece are in PipeSpec.v (shares). Settles the repository's test partition_nasty_count for every such file."
  },
  {
   "property": "C101",
   "status": "proved",
   "theorems": [
    "C101_reading_linear"
   ],
   "note": "Counted: calls of next and bytes passed over by memmem; everything else is constant time per call."
  },
  {
   "property": "C102",
   "status": "partial",
   "theorems": [
    "C102_search_refuted",
    "C102_backward_refuted",
    "C102_search_quadratic_partial",
    "C102_backward_quadratic_partial",
    "C102_search_file_partial",
    "C102_backward_file_partial"
   ],
   "note": "False: on zeros both directions pass over n * n / 8 bytes (C102_search_refuted, C102_backward_refuted). Proved instead: never more than quadratic; linear in well-formed files up to the garbage behind the last message (forward) and in files of messages without stray markers (backward)."
  },
  {
   "property": "C103",
   "status": "partial",
   "theorems": [
    "C103_refuted",
    "C103_clean_partial",
    "C103_overlap_partial",
    "C103_messages_partial"
   ],
   "note": "False: contained_by asks about each candidate again and again without remembering the answer, 2^k calls on a file of 60 * k * num bytes (C103_refuted; 3000 bytes per core suffice to hang ripdlt par_count). Proved instead: at most two calls per piece and two more if every marker starts a message of the file; for every file, two to the number of messages that lead on to one another by overlapping, per piece and once more (C103_overlap_partial), hence two to the number of messages (C103_messages_partial)."
  },
  {
   "property": "C104",
   "status": "partial",
   "theorems": [
    "C104_refuted",
    "C104_quadratic_partial",
    "C104_file_partial"
   ],
   "note": "False: a pattern that matches every byte of zeros (C104_refuted). Proved instead: never more than quadratic, and linear (longest message times number of steps) in files of messages."
  },
  {
   "property": "C105",
   "status": "proved",
   "theorems": [
    "C105_parts",
    "C105_patient"
   ],
   "note": "For payloads of up to 65517 bytes without a newline followed by 1024 bytes or more (otherwise dd_dlt loses bytes even if all are taken: C46, C58)."
  },
  {
   "property": "C106",
   "status": "proved",
   "theorems": [
    "C106_balance",
    "C106_file",
    "C106_condition_needed"
   ],
   "note": "Proved as stated."
  },
  {
   "property": "C107",
   "status": "proved",
   "theorems": [
    "C107_no_more_than_needed",
    "C107_chains",
    "C107_filter_map",
    "C107_groupby",
    "C107_merge"
   ],
   "note": "Proved as stated."
  },
  {
   "property": "C108",
   "status": "proved",
   "theorems": [
    "C108_snapshot",
    "C108_entries",
    "C108_count_grows",
    "C108_dd_dlt"
   ],
   "note": "Proved as stated."
  },
  {
   "property": "C109",
   "status": "proved",
   "theorems": [
    "C109_order",
    "C109_interleaving",
    "C109_files"
   ],
   "note": "Proved as stated."
  },
  {
   "property": "C110",
   "status": "proved",
   "theorems": [
    "C110_selection",
    "C110_stripped"
   ],
   "note": "Proved as stated."
  },
  {
   "property": "C111",
   "status": "proved",
   "theorems": [
    "C111_in_step",
    "C111_meet",
    "C111_file",
    "C111_clean"
   ],
   "note": "Proved as stated."
  },
  {
   "property": "C112",
   "status": "proved",
   "theorems": [
    "C112_same_adapters",
    "C112_same_reducers",
    "C112_streaming",
    "C112_groupby",
    "C112_groupby_at_most",
    "C112_split",
    "C112_split_end",
    "C112_fork",
    "C112_merge"
   ],
   "note": "Proved as stated."
  },
  {
   "property": "C113",
   "status": "partial",
   "theorems": [
    "C113_merge_partial",
    "C113_merge_quadratic",
    "C113_collect_quadratic",
    "C113_split_reducer_per_item"
   ],
   "note": "False as stated: merge calls its function n(n-1)/2 times if nothing can be merged (C113_merge_quadratic), collect copies n(n+1)/2 items because Fold clones the accumulator for every item (C113_collect_quadratic), split makes a reducer for every item instead of every key (C113_split_reducer_per_item). Proved: n(n-1)/2 is also the most for merge, its key function is called at most 2n times, and filter, map, groupby and split call closures linearly often (C112)."
  },
  {
   "property": "C114",
   "status": "partial",
   "theorems": [
    "C114_grep_refuted",
    "C114_grep_counted_partial",
    "C114_capture_counted_partial",
    "C114_cut_refuted",
    "C114_cut_counted_partial",
    "C114_cut_clean_partial",
    "C114_cut_overlap_partial"
   ],
   "note": "False as stated: a text of n lines without messages needs n calls of the grep iterator at once, and the same for the capture iterator (C114_grep_refuted); the first question of the partitioner nests arbitrarily deep on messages that overlap (C114_cut_refuted). Proved: the calls of grep and capture nest once for every match passed over, plus one; cutting at p nests at most (p + 3) / 4 + 1 calls, two where no message begins within another, and in general one more than the number of messages that lead on to one another by overlapping (C114_cut_overlap_partial). (DltIterator: C11; the searching iterators: C51.)"
  },
  {
   "property": "C115",
   "status": "proved",
   "theorems": [
    "C115_sequential",
    "C115_search",
    "C115_backward",
    "C115_contiguous",
    "C115_partition"
   ],
   "note": "W answers every single read as it likes; memmem is only assumed to report positions within its slice. The searching iterator can deliver places that overlap (C115_overlap), each starting at least 16 bytes further."
  },
  {
   "property": "C116",
   "status": "partial",
   "theorems": [
    "C116_grep_partial",
    "C116_grep_ends_partial",
    "C116_refuted",
    "C116_capture_partial"
   ],
   "note": "False as stated: val.len() reads the length field once more, and if it is smaller by then the same message is delivered again, for ever (C116_refuted). Proved: no call panics, what it delivers lies within the mapping, and a call returns if matches are not empty; grepping ends if moreover a length field read twice in a row is not smaller the second time (C116_grep_ends_partial); capturing ends if neither matches nor group 1 are empty (C116_capture_partial)."
  },
  {
   "property": "C117",
   "status": "proved",
   "theorems": [
    "C117_steady",
    "C117_history",
    "C117_unchanged",
    "C117_captures"
   ],
   "note": "C117_steady for an oracle that is right about the first c bytes only, C117_history for sequences of contents with the same first c bytes, C117_unchanged: on a file that does not change MappedModel.v is MatchModel.v."
  },
  {
   "property": "C118",
   "status": "proved",
   "theorems": [
    "C118_accessors",
    "C118_unchanged",
    "C118_short"
   ],
   "note": "C118_short: the bounds 24 and 32 are needed, a message of 20 bytes whose header type byte changes makes ecu_id, extended_header and payload panic. C118_unchanged: on a file that does not change the model is that of DltModel.v."
  },
  {
   "property": "C119",
   "status": "proved",
   "theorems": [
    "C119_exists",
    "C119_ripdlt"
   ],
   "note": "C119_exists: the history without its signals exists. println! uses write_all, which repeats interrupted calls."
  },
  {
   "property": "C120",
   "status": "partial",
   "theorems": [
    "C120_failure_partial",
    "C120_no_effect_partial",
    "C120_beginning_partial",
    "C120_plain_partial",
    "C120_refuted"
   ],
   "note": "False as stated: dd_dlt calls Write::write, which does not repeat an interrupted call, so a signal can end it with an error (C120_refuted). Proved: an interruption has no effect or that of a failing call (C120_failure_partial), the result is the one without signals or an error (C120_no_effect_partial), a beginning of the output arrives (C120_beginning_partial), and with payloads below 1024 bytes and no newline in the output there is no effect at all (C120_plain_partial)."
  },
  {
   "property": "C121",
   "status": "proved",
   "theorems": [
    "C121_iterators",
    "C121_inside",
    "C121_accessors",
    "C121_kept",
    "C121_garbage"
   ],
   "note": "C121_garbage: with garbage between messages the same holds if memmem looks no further than the marker it finds; C121_example: else it need not."
  },
  {
   "property": "C122",
   "status": "proved",
   "theorems": [
    "C122_sequential",
    "C122_unchanged",
    "C122_accessors",
    "C122_depends",
    "C122_fields"
   ],
   "note": "C122_sequential allows all other bytes to change and to be unreadable; C122_depends and C122_fields: files that differ only in bytes that are not read cannot be told apart, so the reads the model notes are all that matter."
  },
  {
   "property": "C123",
   "status": "partial",
   "theorems": [
    "C123_ends_partial",
    "C123_grep_partial",
    "C123_forever",
    "C123_parallel_partial",
    "C123_refuted"
   ],
   "note": "False as stated (C123_refuted: nine commands panic on a file that is a readable file at every time; C123_forever: counting over grep can go on for ever). Proved: count, the raw count and the histogram of message sizes always return; all commands without a regular expression return or panic, never run for ever; those with one never panic; results are bounded by the size of the file; the same on all cores."
  },
  {
   "property": "C124",
   "status": "proved",
   "theorems": [
    "C124_unchanged",
    "C124_parallel"
   ],
   "note": "Fourteen commands and seven on all cores; discharges the simplification in ToolsModel.v that closures run over collected messages."
  },
  {
   "property": "C125",
   "status": "proved",
   "theorems": [
    "C125_pull_push",
    "C125_library",
    "C125_same",
    "C125_std",
    "C125_asks"
   ],
   "note": "C125_std: filter and map of the library, pulled, are std's, call by call; C125_same: effects that do not change results do not change what is pulled (PullModel.v, C84)."
  },
  {
   "property": "C126",
   "status": "partial",
   "theorems": [
    "C126_raw",
    "C126_grep_partial",
    "C126_refuted"
   ],
   "note": "False as stated in both directions (C126_refuted): partitions lose messages, and a match that crosses messages hides them from the sequential grep only. Proved: for every content the raw count is the number of occurrences inside one slice, never more than the sequential one, and at most one less per border; on files without embedded markers and without crossing matches the parallel grep counts exactly what the sequential one counts without the lost part, which is shorter than a share."
  },
  {
   "property": "C127",
   "status": "partial",
   "theorems": [
    "C127_par_iter_partial",
    "C127_refuted"
   ],
   "note": "False as stated in both directions (C127_refuted): a border cuts a long period in two short or in two long ones. Proved: the sum differs by at most one per border, apart from the lost part, and both panic on the same files."
  },
  {
   "property": "C128",
   "status": "proved",
   "theorems": [
    "C128_beginning",
    "C128_delay",
    "C128_prompt",
    "C128_reader",
    "C128_endless"
   ],
   "note": "C128_withheld: payloads of ten bytes without line feeds, nothing arrives in the first nine messages."
  },
  {
   "property": "C129",
   "status": "proved",
   "theorems": [
    "C129_sizes",
    "C129_types",
    "C129_ecus",
    "C129_linear"
   ],
   "note": "C129_attained and C129_all_types: the bounds on rows are attained, for every number of rows."
  },
  {
   "property": "C130",
   "status": "proved",
   "theorems": [
    "C130_iterators",
    "C130_partition",
    "C130_history",
    "C130_count"
   ],
   "note": "Proved as stated."
  },
  {
   "property": "C131",
   "status": "proved",
   "theorems": [
    "C131_backward",
    "C131_grep",
    "C131_partition",
    "C131_inside",
    "C131_backward_kept",
    "C131_depends"
   ],
   "note": "Proved as stated."
  },
  {
   "property": "C132",
   "status": "proved",
   "theorems": [
    "C132_pieces",
    "C132_closed",
    "C132_live",
    "C132_beginning",
    "C132_end",
    "C132_over",
    "C132_total",
    "C132_undisturbed"
   ],
   "note": "Proved as stated."
  },
  {
   "property": "C133",
   "status": "partial",
   "theorems": [
    "C133_durations_partial",
    "C133_others_partial",
    "C133_years_partial",
    "C133_refuted"
   ],
   "note": "False: a period of 2^32 - 1 seconds (C133_refuted). Proved: the exact report of the two commands concerned in both builds, equality for all other commands, and for files without messages of the second 2^32 - 1."
  },
  {
   "property": "C134",
   "status": "proved",
   "theorems": [
    "C134_commands",
    "C134_readable",
    "C134_report",
    "C134_depends",
    "C134_count_needs",
    "C134_count",
    "C134_parallel",
    "C134_parallel_readable"
   ],
   "note": "Also the exact condition for counting, and the commands that run on all cores."
  },
  {
   "property": "C135",
   "status": "proved",
   "theorems": [
    "C135_killed",
    "C135_readable",
    "C135_whole",
    "C135_report",
    "C135_par_iter",
    "C135_other"
   ],
   "note": "For par_iter the lines that workers had printed are stated separately (C135_par_iter)."
  },
  {
   "property": "C136",
   "status": "proved",
   "theorems": [
    "C136_fields",
    "C136_payload",
    "C136_headers",
    "C136_run"
   ],
   "note": "Proved as stated."
  },
  {
   "property": "C137",
   "status": "proved",
   "theorems": [
    "C137_capture",
    "C137_still",
    "C137_kept",
    "C137_inside",
    "C137_depends"
   ],
   "note": "Proved as stated."
  },
  {
   "property": "C138",
   "status": "proved",
   "theorems": [
    "C138_logarithmic",
    "C138_any_file",
    "C138_misses"
   ],
   "note": "C138_misses: the files that show the loss. The properties C28 (as a user expects it) and C68 (the exact step) belong to it."
  },
  {
   "property": "C139",
   "status": "proved",
   "theorems": [
    "C139_contiguous",
    "C139_capture",
    "C139_capture_file",
    "C139_attained"
   ],
   "note": "Proved as stated."
  },
  {
   "property": "C140",
   "status": "proved",
   "theorems": [
    "C140_reading",
    "C140_searching",
    "C140_content"
   ],
   "note": "C140_example: the three kinds of damage on the second of three messages. C16 (a single damaged message costs no other) is false as stated; this is what is true instead."
  },
  {
   "property": "C141",
   "status": "proved",
   "theorems": [
    "C141_commands",
    "C141_garbage",
    "C141_damage",
    "C141_text"
   ],
   "note": "C141_text: the characters on standard output (ripdlt_run); C141_garbage and C141_damage: the two uses of it. par_ commands are not among them, their slices depend on the offsets."
  }
 ]
}