{
 "claims": [
  {
   "property": "C01",
   "status": "proved",
   "theorems": [
    "C01_rzcobs_roundtrip"
   ],
   "note": ""
  },
  {
   "property": "C02",
   "status": "proved",
   "theorems": [
    "C02_separator"
   ],
   "note": ""
  },
  {
   "property": "C03",
   "status": "proved",
   "theorems": [
    "C03_split_independent",
    "C03_split_independent_raw"
   ],
   "note": ""
  },
  {
   "property": "C04",
   "status": "proved",
   "theorems": [
    "C04_overhead"
   ],
   "note": ""
  },
  {
   "property": "C10",
   "status": "proved",
   "theorems": [
    "C10_decode_ignores_rest",
    "C10_malformed_is_final"
   ],
   "note": ""
  },
  {
   "property": "C11",
   "status": "proved",
   "theorems": [
    "C11_truncated_is_eof",
    "C11_eof_is_monotone"
   ],
   "note": ""
  },
  {
   "property": "C12",
   "status": "partial",
   "theorems": [
    "C12_decode_total",
    "C12_decode_terminates",
    "C12_decode_total_refuted",
    "C12_panics_iff",
    "C12_entry_panics"
   ],
   "note": "Total for tables whose strings do not panic the parser; C12_decode_total_refuted: an unchecked interned string plus a corrupt frame panics the host. C12_panics_iff says exactly for which tables decoding can panic (tables with 16-bit indices, a readable timestamp and a message beginning with a nested value)."
  },
  {
   "property": "C05",
   "status": "proved",
   "theorems": [
    "C05_frames_in_order",
    "C05_frames_bytes",
    "C05_frames_results"
   ],
   "note": ""
  },
  {
   "property": "C06",
   "status": "proved",
   "theorems": [
    "C06_resync_attach",
    "C06_resync_reboot",
    "C06_locality"
   ],
   "note": ""
  },
  {
   "property": "C07",
   "status": "proved",
   "theorems": [
    "C07_chunk_independent",
    "C07_host_shows_messages",
    "C07_any_history"
   ],
   "note": ""
  },
  {
   "property": "C08",
   "status": "proved",
   "theorems": [
    "C08_progress",
    "C08_drain_terminates"
   ],
   "note": ""
  },
  {
   "property": "C09",
   "status": "proved",
   "theorems": [
    "C09_raw_lossless"
   ],
   "note": ""
  },
  {
   "property": "C18",
   "status": "proved",
   "theorems": [
    "C18_dense_typed"
   ],
   "note": "The consequence for display is C38."
  },
  {
   "property": "C19",
   "status": "proved",
   "theorems": [
    "C19_literal_verbatim"
   ],
   "note": ""
  },
  {
   "property": "C20",
   "status": "partial",
   "theorems": [
    "C20_lone_close_rejected",
    "C20_lone_open_rejected",
    "C20_unbalanced_refuted",
    "C20_exact"
   ],
   "note": "False as stated: `}{{}` is accepted (the flags in push_literal count non-adjacent braces as an escape). Proved for every other continuation after any well-formed beginning; C20_exact says exactly which texts without parameters are accepted, and as what."
  },
  {
   "property": "C21",
   "status": "proved",
   "theorems": [
    "C21_strict_implies_compatible",
    "C21_compatible_only_adds_hints"
   ],
   "note": ""
  },
  {
   "property": "C22",
   "status": "partial",
   "theorems": [
    "C22_parse_total_refuted",
    "C22_index_overflow_refuted",
    "C22_param_panic_iff",
    "C22_parse_total_partial",
    "C22_panic_iff"
   ],
   "note": "False as stated: `{=1}` and `{18446744073709551615}` panic. Exact characterisation of the strings (C22_panic_iff) and parameters that panic, and totality under a condition on the text."
  },
  {
   "property": "C45",
   "status": "proved",
   "theorems": [
    "C45_show_parse"
   ],
   "note": ""
  },
  {
   "property": "C13",
   "status": "proved",
   "theorems": [
    "C13_log_statement"
   ],
   "note": "Argument values outside the 32-bit ranges of C44 and enums with 256, 65536 or 2^32 variants (C15), adapter attributes on native fields (C42) and delegation to alternatives (C47) are excluded by frame_means; those are claimed separately."
  },
  {
   "property": "C14",
   "status": "proved",
   "theorems": [
    "C14_values",
    "C14_injective"
   ],
   "note": "Same exclusions as C13."
  },
  {
   "property": "C15",
   "status": "partial",
   "theorems": [
    "C15_widths_agree",
    "C15_variant_shown",
    "C15_enum_256_refuted",
    "C15_shift"
   ],
   "note": "False as stated: with exactly 256, 65536 or 2^32 variants the device sends a wider discriminant than the host reads. Exact characterisation, and round trip for all other enums. C15_shift: in those three cases the right variant is found but zero bytes are left in front of its fields, for every such enum."
  },
  {
   "property": "C17",
   "status": "proved",
   "theorems": [
    "C17_types_exist",
    "C17_types_unique",
    "C17_host_order",
    "C17_device_order",
    "C17_sent_once"
   ],
   "note": ""
  },
  {
   "property": "C40",
   "status": "proved",
   "theorems": [
    "C40_text_terminator"
   ],
   "note": ""
  },
  {
   "property": "C42",
   "status": "partial",
   "theorems": [
    "C42_adapter_field",
    "C42_native_field_refuted",
    "C42_native_misread",
    "C42_native_misread_u8"
   ],
   "note": "False as stated: the attribute on a field of a native type (u8, bool, str, ...) keeps the native specifier in the format string but sends tag and text. Proved for all other field types; C42_native_misread says for every native field what the host reads instead."
  },
  {
   "property": "C44",
   "status": "proved",
   "theorems": [
    "C44_usize",
    "C44_usize_wraps",
    "C44_isize",
    "C44_str"
   ],
   "note": "Exactly when: both directions."
  },
  {
   "property": "C46",
   "status": "proved",
   "theorems": [
    "C46_end_to_end"
   ],
   "note": "Same exclusions as C13."
  },
  {
   "property": "C47",
   "status": "partial",
   "theorems": [
    "C47_delegate",
    "C47_delegate_option_refuted",
    "C47_delegate_whole"
   ],
   "note": "False as stated: the host does not select the alternative of Option/Result/RefCell inside a format sequence. Proved for all types with a single alternative and a format method that does not panic; C47_delegate_whole: for every type, the host shows a delegated value with the whole string of its type."
  },
  {
   "property": "C16",
   "status": "proved",
   "theorems": [
    "C16_bits_shown",
    "C16_window_slice",
    "C16_book_refuted"
   ],
   "note": "C16_book_refuted is about an example in the book. Values outside frame_means (arguments narrower than the ranges need) are excluded."
  },
  {
   "property": "C23",
   "status": "partial",
   "theorems": [
    "C23_unsigned",
    "C23_unsigned_plain",
    "C23_signed_decimal",
    "C23_signed_hex",
    "C23_signed_binary_octal",
    "C23_isize_hex_refuted",
    "C23_panics_iff"
   ],
   "note": "False as stated: isize in hexadecimal panics, and this is the only case (C23_panics_iff). Everything else holds; binary and octal of signed values are 128-bit two's complement, not the type's width."
  },
  {
   "property": "C24",
   "status": "proved",
   "theorems": [
    "C24_seconds",
    "C24_time"
   ],
   "note": ""
  },
  {
   "property": "C25",
   "status": "partial",
   "theorems": [
    "C25_iso8601",
    "C25_dates_distinct",
    "C25_panics_iff",
    "C25_late_instant_refuted"
   ],
   "note": "False as stated: instants after the year 999999 panic (exactly those). The calendar is a model of the time crate's (with its feature large-dates)."
  },
  {
   "property": "C26",
   "status": "proved",
   "theorems": [
    "C26_flags"
   ],
   "note": ""
  },
  {
   "property": "C27",
   "status": "proved",
   "theorems": [
    "C27_byte_string",
    "C27_printable"
   ],
   "note": ""
  },
  {
   "property": "C37",
   "status": "proved",
   "theorems": [
    "C37_message",
    "C37_frame"
   ],
   "note": "Coloured output wraps the level by an external function."
  },
  {
   "property": "C38",
   "status": "proved",
   "theorems": [
    "C38_message",
    "C38_timestamp",
    "C38_frame",
    "C38_display_total",
    "C38_alternatives_refuted",
    "C23_isize_hex_refuted",
    "C25_late_instant_refuted"
   ],
   "note": "An exact description of the frames that cannot be shown, for all tables and bytes; all three cases occur (the refuted theorems). C38_display_total gives a condition on the table under which everything can be shown."
  },
  {
   "property": "C39",
   "status": "partial",
   "theorems": [
    "C39_hints_inherited",
    "C39_leaf",
    "C39_composite",
    "C39_everywhere",
    "C39_list_as_text",
    "C39_derived_fields_refuted",
    "C39_ascii_refuted"
   ],
   "note": "False as stated: fields of derived types carry :?, which stops outer hints for signed and nested fields; an outer :a wins over inner hints. Proved along every path without :a; C39_everywhere and C39_list_as_text say for all paths which hint arrives, and that lists of bytes under :a are texts."
  },
  {
   "property": "C28",
   "status": "proved",
   "theorems": [
    "C28_lossless",
    "C28_no_fault",
    "C28_all_delivered",
    "C28_fair_runs_exist",
    "C28_size_one_blocks",
    "C28_host_gone",
    "C28_host_gone_fits"
   ],
   "note": "Sequentially consistent memory; the host follows the RTT protocol (it is not in the repository)."
  },
  {
   "property": "C29",
   "status": "proved",
   "theorems": [
    "C29_safe",
    "C29_nonblocking_terminates",
    "C29_write_returns",
    "C29_flush_returns"
   ],
   "note": "Fails for BUF_SIZE = 0 and for a host-written read offset beyond the buffer (C29_size_zero, C29_bad_host); both are outside of the quantifier."
  },
  {
   "property": "C30",
   "status": "proved",
   "theorems": [
    "C30_flush_waits",
    "C30_passed",
    "C30_flush_returns",
    "C28_all_delivered",
    "C30_host_gone"
   ],
   "note": ""
  },
  {
   "property": "C32",
   "status": "partial",
   "theorems": [
    "C32_most_specific_partial",
    "C32_enabled",
    "C32_off",
    "C32_defined",
    "C32_exact",
    "C32_rejects",
    "C32_most_specific_refuted"
   ],
   "note": "False as stated: an inner module with a stricter level than a module around it is not restricted (the book's own override example). Proved exactly what is computed, and the statement for all other directive lists."
  },
  {
   "property": "C33",
   "status": "proved",
   "theorems": [
    "C33_whole_segments",
    "C33_other_modules"
   ],
   "note": "Identifiers are a predicate of which only non-emptiness and absence of comma, colon and equals sign is assumed."
  },
  {
   "property": "C34",
   "status": "proved",
   "theorems": [
    "C34_round_trip",
    "C34_no_control",
    "C34_injective",
    "C34_total",
    "C34_tags_refuted"
   ],
   "note": "serde_json's grammar is modelled from its documentation. C34_tags_refuted is about the list of tags in the book."
  },
  {
   "property": "C35",
   "status": "proved",
   "theorems": [
    "C35_no_table",
    "C35_announced",
    "C35_accepted",
    "C35_strings",
    "C35_strings_sound",
    "C35_timestamp",
    "C35_encoding",
    "C35_flags",
    "C35_order",
    "C35_no_panic",
    "C35_no_panic_refuted",
    "C35_interned"
   ],
   "note": "The ELF file is its list of symbols and its .defmt section; the last of several symbols at one address wins, so the order and lookup theorems ask for distinct addresses (which the linker gives). Finding: a bitflags symbol in the last 16 bytes of the address space overflows an addition."
  },
  {
   "property": "C36",
   "status": "partial",
   "theorems": [
    "C36_macro_level",
    "C36_frame_entry",
    "C36_nested",
    "C36_indices",
    "C36_only_log_statements_refuted",
    "C36_any_entry",
    "C36_indices_exact"
   ],
   "note": "Levels, nested strings and indices are proved; that only log statements are accepted as messages is false: decode takes any string of the table. C36_any_entry: every entry, whatever its tag, is accepted as a message."
  },
  {
   "property": "C48",
   "status": "proved",
   "theorems": [
    "C48_exact",
    "C48_unambiguous",
    "C48_text",
    "C48_text_unique",
    "C48_char"
   ],
   "note": "The wire format is an inductive relation stated without the decoder; floats are their bit patterns."
  },
  {
   "property": "C31",
   "status": "proved",
   "theorems": [
    "C31_whole_frames",
    "C31_host",
    "C31_reentrant",
    "C31_progress",
    "C31_delivered",
    "C31_sections"
   ],
   "note": "RTT, ITM and semihosting loggers, any number of contexts, every schedule; one call of the encoder is one step, the critical-section contract is assumed, and critical sections of the program are properly nested."
  },
  {
   "property": "C43",
   "status": "proved",
   "theorems": [
    "C43_contract",
    "C43_once",
    "C43_no_panic",
    "C43_second_panic",
    "C43_bounded"
   ],
   "note": "A log statement is the list of steps its expansion makes; panic-probe's handler with and without print-defmt."
  },
  {
   "property": "C41",
   "status": "partial",
   "theorems": [
    "C41_accepts",
    "C41_requires_log",
    "C41_only",
    "C41_parser_total",
    "C41_parser_refuted",
    "C41_panics_iff",
    "C41_panics_odd",
    "C41_text",
    "C41_text_refuted",
    "C41_builtin",
    "C41_shows",
    "C41_println",
    "C41_no_panic",
    "C41_format_panics_iff",
    "C41_diff_panic",
    "C41_no_panic_message_refuted",
    "C41_no_panic_files_refuted",
    "C41_no_panic_width_refuted",
    "C41_decorated",
    "C41_colors",
    "C41_colors_refuted",
    "C41_documented_colors_refuted",
    "C41_zero_padding_refuted",
    "C41_root_refuted"
   ],
   "note": "Acceptance of the documented syntax, the {s} requirement, verbatim text segments and what every segment shows are proved for all format strings and records. Read literally the property is false of the code, so it is partial: a trailing backslash inside a bracket panics the parser (exactly when: C41_panics_iff), text after a stray percent sign is dropped silently, the bright colours of the book are rejected, zero padding without an alignment turns line 24 into 240 where the book says 024, {fff} shows /a/b.rs as //a/b.rs, and formatting panics on messages that end like an unfinished assert_eq comparison, on 256 f's and on widths above the limit of the formatting machinery; each is a _refuted theorem and C41_no_panic proves panic freedom outside these cases. With colours on, the visible text is the same except for groups that have both a width and a style of their own (C41_colors, C41_colors_refuted). External crates (colored, dissimilar, char classification) are abstracted by the record external under the stated external_ok."
  },
  {
   "property": "C49",
   "status": "partial",
   "theorems": [
    "C49_panic_iff",
    "C49_no_panic",
    "C49_infallible_refuted",
    "C49_derived_format_refuted"
   ],
   "note": "Read literally the property is false of the code: an empty slice of Infallible and a hand-written format that calls the derived (or bitflags!) format of another value reach unreachable!() (_refuted theorems). C49_panic_iff shows that these two are the only causes; C49_no_panic gives the frame in all other cases. Panics of user code (Debug, Display, hand-written formats themselves) are outside the model."
  },
  {
   "property": "C50",
   "status": "partial",
   "theorems": [
    "C50_message",
    "C50_timestamp",
    "C50_value",
    "C50_plain",
    "C50_adapters",
    "C50_adapters_debug",
    "C50_adapter_hints_refuted"
   ],
   "note": "The printed text is characterised for every log statement, in both directions, by a relation on types and values that mentions neither bytes nor decoded arguments. Only the clause about adapters is false of the code: under :?, which named fields of derived types impose, the text made on the device is quoted again (C50_adapter_hints_refuted); for all other hints C50_adapters holds. Float and string-escape texts are abstract functions of the value."
  },
  {
   "property": "C51",
   "status": "partial",
   "theorems": [
    "C51_ranges",
    "C51_option",
    "C51_result",
    "C51_duration",
    "C51_constants",
    "C51_ipv4",
    "C51_ipv6",
    "C51_socket",
    "C51_nonzero",
    "C51_pointers",
    "C51_location",
    "C51_layout",
    "C51_lists",
    "C51_tuples",
    "C51_phantom",
    "C51_refcell",
    "C51_cell_refuted"
   ],
   "note": "False of the code for Cell, which prints a stray parenthesis (C51_cell_refuted); proved for the other types, with the texts the code documents: IPv6 addresses are not abbreviated, one-element tuples have no comma, pointers are 32 bits."
  },
  {
   "property": "C52",
   "status": "proved",
   "theorems": [
    "C52_table",
    "C52_printed",
    "C52_linked",
    "C52_names"
   ],
   "note": "The hypothesis contains_flags says that the binary has the macro's statics and that no other invocation has the same package, crate, disambiguator and type name."
  },
  {
   "property": "C53",
   "status": "partial",
   "theorems": [
    "C53_reads",
    "C53_panic",
    "C53_assert",
    "C53_debug",
    "C53_unwrap",
    "C53_comparison",
    "C53_comparison_exact",
    "C53_indexed_refuted",
    "C53_capture_refuted",
    "C53_dbg"
   ],
   "note": "Proved for every accepted message of panic!, todo!, unreachable!, assert! and unwrap!, every condition text and every dbg! list. For assert_eq! and assert_ne! it is false: a message whose parameters have explicit indices does not compile (C53_indexed_refuted, e.g. every bitfield message), and an argument that mentions a caller's variable called left_val shows the left operand instead (C53_capture_refuted); C53_comparison_exact says for every message that the log macros accept whether it compiles (as many parameters without index as there are arguments) and that it then says what it should, if the arguments do not use the names bound by the macros. Expressions are pure functions of the scope here; how often and in which order they are evaluated is C68."
  },
  {
   "property": "C54",
   "status": "partial",
   "theorems": [
    "C54_located",
    "C54_any_order",
    "C54_module_refuted",
    "C54_succeeds",
    "C54_no_panic",
    "C54_frame",
    "C54_all_or_none"
   ],
   "note": "False as stated: the namespaces are only popped when the next namespace is entered, so a log statement that follows a sibling namespace (a function's statement after one of its closures) is shown as inside it (C54_module_refuted). Proved for debug information in which no statement follows a sibling namespace and namespaces are only in namespaces: files, lines, modules and addresses are exactly those of the statements. C54_any_order says for statements in any order what is shown: the namespace entered last before the statement. gimli's parsing of the sections is not modelled; its entry trees are the input."
  },
  {
   "property": "C55",
   "status": "partial",
   "theorems": [
    "C55_json_exact",
    "C55_document",
    "C55_document_written",
    "C55_payload",
    "C55_payload_total",
    "C55_text",
    "C55_json",
    "C55_host",
    "C55_host_refuted",
    "C55_json_refuted",
    "C55_json_events",
    "C55_format",
    "C55_default",
    "C55_json_run",
    "C55_target_panics_iff"
   ],
   "note": "False as stated in two corners: a record of the host whose target starts with defmt@ but holds no payload makes the sinks panic (C55_host_refuted), and with --json the notes on skipped frames (--show-skipped-frames or -v) go to the standard output between the JSON lines (C55_json_refuted). Proved for everything else, from the statements of the program to the bytes of the standard output, for every log format with or without colours (C55_format: exactly the lines that the formatter of C41 makes, and a panic exactly where it has none), spelled out for the default format (messages that are not comparisons and within the supported width), and for JSON. serde_json and the log crate are modelled from their documentation; writing to the streams always succeeds; colours of the terminal are C41. C55_target_panics_iff says exactly when records with the marker make the sinks panic."
  },
  {
   "property": "C56",
   "status": "partial",
   "theorems": [
    "C56_accepts",
    "C56_messages",
    "C56_suite",
    "C56_builds",
    "C56_builds_exact",
    "C56_count",
    "C56_run",
    "C56_order",
    "C56_verdict",
    "C56_documented_partial",
    "C56_ignored_refuted",
    "C56_condition_refuted",
    "C56_hook_error_refuted",
    "C56_last_line_refuted"
   ],
   "note": "False as stated for tests marked ignore: the macro still calls them and drops their outcome, so one that panics or hangs fails the suite (C56_ignored_refuted). Everything else is proved, for every module: acceptance in both directions, the exact run (C56_run, with ignored tests called), and the verdict; for suites without ignored tests the run is the documented one. C56_builds_exact says for every module and configuration whether the generated code compiles. Further findings: a hook whose cfg condition does not hold is still called (C56_condition_refuted), an Err that a hook returns is dropped (C56_hook_error_refuted), and teardown can panic after the line that all tests passed (C56_last_line_refuted). Functions are effects on an abstract machine; items that are not functions are opaque; function names have no braces."
  },
  {
   "property": "C57",
   "status": "partial",
   "theorems": [
    "C57_stdin",
    "C57_stdin_frames",
    "C57_file_once",
    "C57_connection",
    "C57_connection_ends_refuted",
    "C57_watch",
    "C57_phase",
    "C57_half_written_refuted",
    "C57_watch_ends_refuted",
    "C57_success_only",
    "C57_connection_forever",
    "C57_watch_forever",
    "C57_half_written"
   ],
   "note": "That everything is shown, in order and once, is proved for all sources, encodings, streams and replacements of the file. False are three clauses about ending: a TCP or serial connection that is closed is read for ever (zero bytes are not taken as the end), with --watch-elf the end of the standard input restarts the loop for ever (with --json a schema line each time), and with --watch-elf a file that is read while it is being written ends the program. The operating system is a list of read results and notices. The last four say so for every table and stream."
  },
  {
   "property": "C58",
   "status": "partial",
   "theorems": [
    "C58_frames",
    "C58_damaged",
    "C58_success",
    "C58_killed_refuted",
    "C58_killed"
   ],
   "note": "False in one case: if QEMU is killed by a signal, ExitStatus::code is None and qemu-run exits with 0 (C58_killed_refuted). Everything else is proved for all outputs, cuttings and exit codes. C58_killed: so for every signal, output and cutting."
  },
  {
   "property": "C59",
   "status": "proved",
   "theorems": [
    "C59_one_caller",
    "C59_lossless",
    "C59_flushed",
    "C59_arrives",
    "C59_fair_exists"
   ],
   "note": "Composition of the logger (LoggerModel) and the channel (RttModel) in one machine: a context that has called the channel waits for the call to return, everything else interleaves freely. Safety holds for all programs, also ones that panic or log reentrantly; arrival for programs that do neither. The host is connected in blocking mode for the whole run, as in C28."
  },
  {
   "property": "C60",
   "status": "proved",
   "theorems": [
    "C60_so_far",
    "C60_terminal",
    "C60_format",
    "C60_format_so_far"
   ],
   "note": "Composition of C59, C46, C31, C57 and C55 for both encodings, the default output format without colours and any log format (C60_format and C60_format_so_far, lines as in C41); at every moment of a run, in the raw encoding, for programs whose messages are not cut off by a panic or reentrancy; readable asks that a message is not of the shape that the printer shows as a coloured comparison, and fits the width limit of the formatting machinery (see C55, C41). Statements are arbitrary Format values as in C46; flushes in between are allowed."
  },
  {
   "property": "C61",
   "status": "proved",
   "theorems": [
    "C61_accepted",
    "C61_index",
    "C61_string",
    "C61_distinct",
    "C61_nothing_else",
    "C61_timestamp",
    "C61_levels",
    "C61_statement",
    "C61_linked",
    "C61_flags",
    "C61_called",
    "C61_at_most_one"
   ],
   "note": "The linker is modelled by what the script uses of it (LinkModel); liveness of strings is given, all object files take part. C61_flags asks that two bitflags! types with the same name do not also have the same disambiguator, package and crate but different widths (their flags would be mixed)."
  },
  {
   "property": "C62",
   "status": "partial",
   "theorems": [
    "C62_capacity",
    "C62_errors",
    "C62_budget",
    "C62_plain",
    "C62_enough",
    "C62_kept",
    "C62_before_end",
    "C62_message_refuted",
    "C62_flags_refuted",
    "C62_end_refuted"
   ],
   "note": "False of the code: the pattern .defmt.* also takes .defmt.end, so nothing is behind the end marker, every flag uses 16 indices, and 65531 strings or one string and 4096 flags are rejected. Proved: for every program, which of them are linked and which error the others get, from an independent count of bytes and padding (C62_capacity, C62_errors); the simple forms of it for programs without flags and timestamp (at most 65530 strings) and with them; and that flags are kept."
  },
  {
   "property": "C63",
   "status": "proved",
   "theorems": [
    "C63_program",
    "C63_format",
    "C63_format_so_far"
   ],
   "note": "Composition of C61 with C60; both encodings, default output format without colours, and any log format (C63_format, at every moment C63_format_so_far); program_safe excludes the strings on which the parser of the decoder panics (C12)."
  },
  {
   "property": "C64",
   "status": "proved",
   "theorems": [
    "C64_lossless",
    "C64_sequential",
    "C64_no_fault",
    "C64_flush",
    "C64_passed",
    "C64_all_delivered",
    "C64_fair_exists",
    "C64_release_needed",
    "C64_device",
    "C64_terminal"
   ],
   "note": "Stores only are reordered: loads are done in program order and what the host stores is seen at once. Connected host in blocking mode, as in C28."
  },
  {
   "property": "C65",
   "status": "proved",
   "theorems": [
    "C65_terminal",
    "C65_exit_code",
    "C65_unconditional_refuted"
   ],
   "note": "One context logs; talk gives what the functions log. The two conditions of the statement are needed (C65_unconditional_refuted): a panic handler that asks for success, and QEMU killed by a signal (C58), both make a failed suite a success."
  },
  {
   "property": "C66",
   "status": "proved",
   "theorems": [
    "C66_piece",
    "C66_early",
    "C66_arrives",
    "C66_fair_exists",
    "C66_shown",
    "C66_terminal",
    "C66_early_terminal",
    "C66_shown_format",
    "C66_format",
    "C66_early_format",
    "C66_json",
    "C66_early_json",
    "C66_program",
    "C66_race_refuted"
   ],
   "note": "Sequentially consistent memory; a host detaches only between its own reads. The condition on the host is needed: C66_race_refuted is a run in which the mode changes during a non-waiting write (the device reads it once per write) and a later, waiting write is lost."
  },
  {
   "property": "C67",
   "status": "proved",
   "theorems": [
    "C67_verdict",
    "C67_reports",
    "C67_crashes",
    "C67_usage",
    "C67_overwrite",
    "C67_single",
    "C67_all",
    "C67_single_refuted",
    "C67_all_refuted",
    "C67_targets",
    "C67_features",
    "C67_options",
    "C67_cross"
   ],
   "note": "The results of commands and files are arbitrary; the compiler gives one version string; the crate similar gives differences that add up to both texts and none for equal texts. Output on the terminal other than the list of errors is not modelled."
  },
  {
   "property": "C68",
   "status": "proved",
   "theorems": [
    "C68_log",
    "C68_println",
    "C68_write",
    "C68_order",
    "C68_alternatives",
    "C68_interrupted",
    "C68_panic",
    "C68_assert",
    "C68_debug",
    "C68_unwrap",
    "C68_comparison",
    "C68_dbg",
    "C68_once",
    "C68_frame",
    "C68_scope",
    "C68_timestamp_held_refuted",
    "C68_timestamp_logs_refuted",
    "C68_timestamp_scope_refuted",
    "C68_timestamp_return_refuted"
   ],
   "note": "The generated code is a syntax tree with an evaluator; the user's expressions are arbitrary functions of the state and the scope. Types are erased, temporaries have no destructors, Format implementations have no effect but their bytes."
  },
  {
   "property": "C69",
   "status": "proved",
   "theorems": [
    "C69_resolves",
    "C69_unique",
    "C69_code",
    "C69_variables",
    "C69_compiles",
    "C69_bounds",
    "C69_accepted",
    "C69_options",
    "C69_crate",
    "C69_recursive",
    "C69_recursive_refuted",
    "C69_both_refuted",
    "C69_variant_refuted",
    "C69_raw_refuted",
    "C69_generic"
   ],
   "note": "Resolution is modelled as finite derivations from one clause per type constructor; lifetimes, Sized, auto traits and the recursion limit are left out. The facts about other traits (Debug, Display, Copy) are arbitrary."
  },
  {
   "property": "C70",
   "status": "proved",
   "theorems": [
    "C70_log",
    "C70_panic",
    "C70_write",
    "C70_assert",
    "C70_comparison",
    "C70_dbg",
    "C70_intern",
    "C70_bitflags",
    "C70_total",
    "C70_panic_handler",
    "C70_global_logger",
    "C70_visibility_refuted",
    "C70_conflict_refuted"
   ],
   "note": "The parsers of syn for expressions and types are arbitrary functions with the laws of syn_ok (an instance is given); the inside of attributes is not parsed further. The two exceptions in the statement are refuted versions of it."
  },
  {
   "property": "C71",
   "status": "proved",
   "theorems": [
    "C71_buffer_size",
    "C71_constant",
    "C71_small_sizes_refuted",
    "C71_channel_works",
    "C71_probe_targets",
    "C71_itm_refuted",
    "C71_line_removed",
    "C71_script",
    "C71_arc",
    "C71_arc_refuted"
   ],
   "note": "The reader of linker scripts covers the commands that occur in defmt.x.in. The exceptions in the statement are the refuted theorems and a case of C71_buffer_size. Which targets have compare-and-swap is an input (C71_arc, C71_arc_refuted)."
  },
  {
   "property": "C72",
   "status": "proved",
   "theorems": [
    "C72_statement",
    "C72_sent",
    "C72_disjoint",
    "C72_frame"
   ],
   "note": "About the programs of LinkModel (C61). IdRanges is hidden from the documentation of the crate and used by loggers outside this repository."
  },
  {
   "property": "C73",
   "status": "proved",
   "theorems": [
    "C73_value",
    "C73_fields",
    "C73_run",
    "C73_stream",
    "C73_program",
    "C73_so_far",
    "C73_skipped_refuted"
   ],
   "note": "serde and serde_json are modelled from their documentation; JSON is read by the reader of C55, which accepts exactly the documents of the grammar of RFC 8259 without booleans and fractions (C55_document). C73_program starts from the macros of a linked program with any number of contexts, as C63, in both encodings. The exception in the statement is C73_skipped_refuted."
  },
  {
   "property": "C74",
   "status": "proved",
   "theorems": [
    "C74_frame",
    "C74_total",
    "C74_line",
    "C74_typed",
    "C74_slice",
    "C74_array",
    "C74_bytes",
    "C74_byte_array",
    "C74_interned",
    "C74_text_refuted",
    "C74_booleans_refuted"
   ],
   "note": "Sizes are relations of their own (SizeSpec), proved equal to the length of what the device model writes; the two _refuted theorems are about remarks in the book."
  },
  {
   "property": "C75",
   "status": "proved",
   "theorems": [
    "C75_turns",
    "C75_counter",
    "C75_timer",
    "C75_extended",
    "C75_ends",
    "C75_extended_log",
    "C75_extended_log_refuted"
   ],
   "note": "One core; the interrupt handler runs as a whole and at once when interrupts are enabled. The _refuted theorem is the exception named in the property: the book's 64-bit time used in timestamp!."
  },
  {
   "property": "C76",
   "status": "proved",
   "theorems": [
    "C76_words",
    "C76_rest",
    "C76_terminal",
    "C76_format",
    "C76_json",
    "C76_program",
    "C76_fair_exists",
    "C76_inside"
   ],
   "note": "One core: has_core says who may run. The panic message is one list of writes for the whole run; only the first panic prints, so this is no restriction. The exception in the statement is C76_inside."
  },
  {
   "property": "C77",
   "status": "proved",
   "theorems": [
    "C77_accepted",
    "C77_param",
    "C77_hint",
    "C77_one_parameter",
    "C77_strict_brace",
    "C77_two_parameters_refuted",
    "C77_strict_unknown_refuted"
   ],
   "note": "The grammar (GrammarSpec) is a set of inductive relations that use none of the parser's functions. The two _refuted theorems show the parenthesis of the statement, and that strict mode lets one kind of unknown hint pass."
  },
  {
   "property": "C78",
   "status": "proved",
   "theorems": [
    "C78_log",
    "C78_println",
    "C78_panic",
    "C78_assert",
    "C78_unwrap",
    "C78_comparison",
    "C78_dbg"
   ],
   "note": "Joins C68 (what the generated code executes), C53 (what its messages read) and C46 (decoding). Messages of comparisons are those that compile (C53_comparison_exact): as many parameters without index as there are arguments. A failing level filter is C68; arguments that do not come back are C68_interrupted."
  },
  {
   "property": "C79",
   "status": "proved",
   "theorems": [
    "C79_exact",
    "C79_otherwise",
    "C79_one",
    "C79_order",
    "C79_written",
    "C79_ignored"
   ],
   "note": "The grammar (JsonSpec) follows RFC 8259 and uses none of the reader's functions; the reader is serde_json as modelled for C34 (IgnoredAny for unknown fields, a derived visitor for objects and arrays)."
  },
  {
   "property": "C80",
   "status": "proved",
   "theorems": [
    "C80_stay",
    "C80_restored",
    "C80_kept",
    "C80_present",
    "C80_crash_refuted",
    "C80_failed_refuted"
   ],
   "note": "What is installed is computed from the successful rustup target add and remove commands of the run; rustup lists it, or fails. The two exceptions of the statement are the _refuted theorems."
  }
 ]
}