{"id": "C01", "title": "rzCOBS frames round-trip", "statement": "Whatever bytes a log frame consists of, running the device's default encoding over them (start of frame, any number of writes, end of frame) and decoding the bytes before the frame separator on the host gives back exactly the same bytes, followed only by at most six zero bytes of padding.", "quantifier": "every byte sequence of any length, from every encoder state between frames, split into any list of write calls", "why_tests_cant": "the encoder is a state machine with run lengths up to 134 and a 7-bit zero map; the unit tests list about 15 hand-picked frames out of an infinite set", "anchors": ["defmt/src/encoding/rzcobs.rs: Encoder::{start_frame,write,end_frame}", "decoder/src/stream/rzcobs.rs: rzcobs_decode"]}
{"id": "C02", "title": "Frame bodies never contain the separator", "statement": "The encoded body of a frame contains no 0x00 byte and is followed by exactly one 0x00, so the separator identifies frame boundaries unambiguously.", "quantifier": "every frame content and every split into write calls", "why_tests_cant": "absence of a byte value in the output must hold for all inputs", "anchors": ["defmt/src/encoding/rzcobs.rs: Encoder::{write,end_frame}"]}
{"id": "C03", "title": "Encoding does not depend on how writes are split", "statement": "The bytes that reach the transport depend only on the concatenation of the bytes written to a frame, never on how many write calls they are split into, for both encodings.", "quantifier": "every list of write calls of any length, every encoder state", "why_tests_cant": "number of splits is exponential in the frame length", "anchors": ["defmt/src/encoding/rzcobs.rs: Encoder::write", "defmt/src/encoding/raw.rs", "defmt/src/encoding/mod.rs"]}
{"id": "C04", "title": "Bounded encoding overhead", "statement": "rzCOBS encoding of an n byte frame occupies at most n + n/134 + 1 bytes plus the separator; it never expands a frame by more.", "quantifier": "every frame content of any length", "why_tests_cant": "worst case over all inputs", "anchors": ["defmt/src/encoding/rzcobs.rs: Encoder::{write,end_frame}"]}
{"id": "C05", "title": "Back-to-back frames decode in order", "statement": "A device that sends any sequence of non-empty frames produces a byte stream from which the host stream decoder extracts exactly those frames (up to zero padding), in order, and then asks for more data.", "quantifier": "every finite sequence of non-empty frame contents, every chunking of the stream into received() calls", "why_tests_cant": "unbounded sequences and chunkings", "anchors": ["decoder/src/stream/rzcobs.rs: Rzcobs::{received,decode}", "defmt/src/encoding/rzcobs.rs"]}
{"id": "C06", "title": "Resynchronisation after garbage, loss or reboot", "statement": "If the stream is cut at an arbitrary point (device reset in the middle of a frame, host attaching late, corrupted bytes) then every frame that starts after the next separator byte is still decoded exactly; garbage costs at most one result per zero-delimited piece. Because a freshly booted device begins with a separator, the first frame after a reboot is never merged with the remains of the previous boot.", "quantifier": "every garbage byte string / every crash point of a previous boot, every following frame sequence, every chunking", "why_tests_cant": "crash point and garbage contents are arbitrary", "anchors": ["defmt/src/encoding/rzcobs.rs: Encoder::start_frame", "decoder/src/stream/rzcobs.rs: Rzcobs::{received,decode}"]}
{"id": "C07", "title": "Host decoding does not depend on how the stream is chunked", "statement": "The sequence of frames and errors obtained by repeatedly calling received() and then draining decode() depends only on the total byte stream, not on how the bytes were grouped into received() calls (rzCOBS encoding; for the raw encoding, up to the first Malformed error).", "quantifier": "every byte stream (valid or not), every table, every chunking", "why_tests_cant": "all groupings of all streams", "anchors": ["decoder/src/stream/rzcobs.rs", "decoder/src/stream/raw.rs", "print/src/main.rs: run"]}
{"id": "C08", "title": "The stream decoder never gets stuck", "statement": "Each decode() on an rzCOBS stream that does not answer UnexpectedEof removes at least one byte from the buffer, UnexpectedEof leaves the buffer alone, the internal invariant asserted by the code holds in every reachable state, and the host's drain loop terminates after at most as many steps as there are buffered bytes.", "quantifier": "every history of received()/decode() calls with arbitrary bytes", "why_tests_cant": "reachable states are unbounded", "anchors": ["decoder/src/stream/rzcobs.rs: Rzcobs::decode (assert)", "print/src/main.rs: run"]}
{"id": "C09", "title": "Raw stream decoding is lossless", "statement": "With the raw encoding a concatenation of well-formed frames is decoded frame by frame in order whatever the chunking; incomplete data is kept untouched until more bytes arrive.", "quantifier": "every sequence of well-formed frames and every chunking", "why_tests_cant": "unbounded", "anchors": ["decoder/src/stream/raw.rs: Raw::{received,decode}", "decoder/src/lib.rs: Table::decode"]}
{"id": "C10", "title": "Decoding ignores bytes after the frame", "statement": "If decoding a buffer yields a frame and a consumed count, then appending any bytes to the buffer (or cutting it right after the consumed bytes) yields the same frame and the same count, and the count never exceeds the buffer length.", "quantifier": "every table, every buffer, every suffix", "why_tests_cant": "for all buffers", "anchors": ["decoder/src/lib.rs: Table::decode", "decoder/src/decoder.rs: Decoder::decode_format"]}
{"id": "C11", "title": "A truncated frame is reported as incomplete, never misread", "statement": "If a buffer holds a decodable frame, then every strict prefix of the consumed bytes makes decode return UnexpectedEof - not Malformed and not some other frame.", "quantifier": "every table, every decodable buffer, every truncation point", "why_tests_cant": "every crash/truncation point of every frame", "anchors": ["decoder/src/lib.rs: Table::decode", "decoder/src/decoder.rs: Decoder::decode_format"]}
{"id": "C12", "title": "Decoding arbitrary bytes terminates without panicking", "statement": "For any bytes received from the device and any table whose strings were accepted by the firmware build, decode returns a frame, UnexpectedEof or Malformed; it terminates (recursion depth bounded by the number of bytes) and does not panic.", "quantifier": "every byte string; every table of accepted strings", "why_tests_cant": "hostile/corrupt input space is unbounded", "anchors": ["decoder/src/decoder.rs", "decoder/src/lib.rs: Table::decode", "parser/src/lib.rs"]}
{"id": "C13", "title": "A log statement's arguments survive the trip", "statement": "For a log statement with any accepted format string and arguments of matching types, the bytes the device writes decode on the host to a frame with the statement's level, index, format string, timestamp arguments and exactly the original argument values, consuming exactly the bytes written.", "quantifier": "every accepted format string, every argument list in range, every timestamp format, every table containing the strings", "why_tests_cant": "arguments and format strings range over infinite sets", "anchors": ["macros/src/function_like/log/codegen.rs: Codegen", "defmt/src/export/*.rs", "decoder/src/decoder.rs: decode_format", "decoder/src/lib.rs: Table::decode"]}
{"id": "C14", "title": "Values of Format types survive the trip", "statement": "Values of primitive, struct, enum, Option, Result, tuple, slice, array, reference, and hand-written (write!-sequence) Format types, nested to any depth, decode to the corresponding tree of format strings and arguments.", "quantifier": "every type built from these constructors at any depth, every value of that type", "why_tests_cant": "recursive types and values", "anchors": ["defmt/src/impls/*.rs", "defmt/src/traits.rs", "macros/src/derives/format/codegen*", "decoder/src/decoder.rs"]}
{"id": "C15", "title": "Enum discriminant widths agree between device and host", "statement": "For an enum with any number of variants the derived encoder and the decoder agree on the width of the discriminant, so the host shows the variant that was logged.", "quantifier": "every number of variants and every variant", "why_tests_cant": "boundary counts (256, 65536) are not in any test", "anchors": ["macros/src/derives/format/codegen/enum_data.rs: DiscriminantEncoder", "decoder/src/decoder.rs: get_variant"]}
{"id": "C16", "title": "Bitfield parameters show the selected bits", "statement": "For every set of bitfield ranges applied to an argument, what is transmitted is enough to reconstruct each range, and the host displays for {i=a..b} exactly bits a..b of the original value.", "quantifier": "every list of ranges within 0..128, every value", "why_tests_cant": "2^128 values times all range sets", "anchors": ["macros/src/function_like/log/codegen.rs: encode_arg", "decoder/src/decoder.rs: merge_bitfields, decode_format", "decoder/src/frame.rs: format_args_real"]}
{"id": "C17", "title": "An argument is sent once however often it is displayed", "statement": "The arguments on the wire are exactly one per distinct argument index, in index order, on the device and on the host alike, whatever order and however many times the format string mentions them.", "quantifier": "every accepted format string", "why_tests_cant": "all format strings", "anchors": ["macros/src/function_like/log/codegen.rs: Codegen::new", "decoder/src/decoder.rs: prepare_params, merge_bitfields"]}
{"id": "C18", "title": "Accepted format strings have dense, consistently typed arguments", "statement": "If parsing succeeds, argument indices are exactly 0..n, every index has one type (bitfields counting as one type), and every bitfield range is non-empty and within 0..128; hence displaying a decoded frame never indexes out of bounds.", "quantifier": "every string and both parser modes", "why_tests_cant": "all strings", "anchors": ["parser/src/lib.rs: parse", "decoder/src/frame.rs: format_args_real"]}
{"id": "C19", "title": "Literal text is reproduced verbatim", "statement": "Any text can be logged literally: escaping { and } by doubling and parsing gives back one literal with the original text; assert!/dbg! rely on this when embedding source expressions.", "quantifier": "every text", "why_tests_cant": "all strings", "anchors": ["parser/src/lib.rs: push_literal, parse", "macros/src/construct.rs: escaped_expr_string"]}
{"id": "C20", "title": "Unbalanced braces are rejected", "statement": "A format string in which a single (unescaped) brace occurs in literal text is rejected.", "quantifier": "every string", "why_tests_cant": "all strings", "anchors": ["parser/src/lib.rs: push_literal"]}
{"id": "C21", "title": "Strict and forwards-compatible parsing agree", "statement": "A format string accepted at compile time (strict mode) is parsed to the same fragments by the host (forwards-compatible mode), and forwards-compatible mode only additionally accepts unknown display hints.", "quantifier": "every string", "why_tests_cant": "all strings", "anchors": ["parser/src/lib.rs: parse, parse_param"]}
{"id": "C22", "title": "The format string parser never panics", "statement": "Parsing any string returns Ok or an Error.", "quantifier": "every string", "why_tests_cant": "all strings including multi-byte characters", "anchors": ["parser/src/lib.rs: parse_range"]}
{"id": "C23", "title": "Integers are displayed faithfully", "statement": "The text shown for an unsigned or signed integer argument under no hint, zero padding, :x, :X, :o, :b (with or without #) parses back to the logged value (two's complement at the type's width for negative hex) and has at least the requested width; displaying never panics.", "quantifier": "every value of every integer type, every hint and width", "why_tests_cant": "2^128 values", "anchors": ["decoder/src/frame.rs: format_u128, format_i128, I128Hex"]}
{"id": "C24", "title": "Time displays are exact", "statement": "The :us/:ms and :tus/:tms/:ts displays denote exactly the logged number of micro/milliseconds or seconds, with fields in range (seconds and minutes < 60, hours < 24).", "quantifier": "every u128 timestamp", "why_tests_cant": "unbounded", "anchors": ["decoder/src/frame.rs: format_time, format_u128"]}
{"id": "C25", "title": "ISO 8601 display denotes the logged instant", "statement": "The :iso8601s/:iso8601ms displays denote exactly the logged Unix time as a proleptic Gregorian UTC date, for every u64 timestamp.", "quantifier": "every u64 timestamp", "why_tests_cant": "leap-year arithmetic over the whole range", "anchors": ["decoder/src/frame.rs: format_iso8601"]}
{"id": "C26", "title": "Bitflags display lists exactly the contained flags", "statement": "For a bitflags value the display lists, in declaration order, exactly the declared flags contained in the value (a zero flag only for the zero value) and (empty) if there are none.", "quantifier": "every flag table and value", "why_tests_cant": "all values and tables", "anchors": ["decoder/src/frame.rs: format_u128", "decoder/src/elf2table/mod.rs: parse_impl"]}
{"id": "C27", "title": "Byte-string display is unambiguous", "statement": "The :a display of a byte slice is a well-formed byte-string literal from which the bytes can be recovered uniquely.", "quantifier": "every byte sequence", "why_tests_cant": "all byte strings", "anchors": ["decoder/src/frame.rs: format_bytes"]}
{"id": "C28", "title": "The RTT ring buffer delivers what was written", "statement": "While the host is attached in blocking mode, for every interleaving of device writes and host reads the host reads exactly the bytes written, in order, without loss, duplication or overwriting of unread bytes; if the host stops reading for good and the unread bytes do not fit the buffer, the device never finishes, and if they fit (and it does not flush) it does.", "quantifier": "every buffer size of at least 2, every sequence of writes, every interleaving of device and host memory operations", "why_tests_cant": "interleavings and wrap-around offsets", "anchors": ["firmware/defmt-rtt/src/channel.rs: write_all, blocking_write, write_impl, available_buffer_size"]}
{"id": "C29", "title": "The RTT channel never writes outside its buffer and never hangs in non-blocking mode", "statement": "Every access made by the channel is inside the ring buffer, the write offset stays below the buffer size, and a non-blocking write_all terminates for every host behaviour; every write or flush that begins while no host is connected, and every write with blocking disabled, is such a one and returns.", "quantifier": "every buffer size >= 1, every data length, every host-written read offset below the size", "why_tests_cant": "all offsets, all lengths", "anchors": ["firmware/defmt-rtt/src/channel.rs"]}
{"id": "C30", "title": "flush waits for exactly the unread data", "statement": "After flush returns on a connected blocking channel the host has consumed every byte written before it; if the host stops reading for good before that, flush never returns.", "quantifier": "every interleaving", "why_tests_cant": "schedules", "anchors": ["firmware/defmt-rtt/src/channel.rs: flush"]}
{"id": "C31", "title": "Frames from different contexts never interleave", "statement": "For every set of threads/interrupts logging through the RTT logger and every schedule, the transported byte stream is the concatenation of whole frames (plus at most one trailing partial frame), and a context that logs while already inside a frame stops with a panic instead of corrupting it.", "quantifier": "every number of contexts, every schedule, every frame contents", "why_tests_cant": "schedules", "anchors": ["firmware/defmt-rtt/src/lib.rs: Logger impl", "firmware/defmt-itm/src/lib.rs", "firmware/defmt-semihosting/src/lib.rs", "defmt/src/export/mod.rs: acquire_and_header, release"]}
{"id": "C32", "title": "DEFMT_LOG: the most specific directive decides", "statement": "A log statement in module M at level L is compiled in iff the most specific directive of DEFMT_LOG that applies to M (longest module prefix; later duplicates override earlier ones; a bare level for the rest; error by default) enables L.", "quantifier": "every DEFMT_LOG value, crate, module path and level", "why_tests_cant": "directive lists are unbounded", "anchors": ["macros/src/function_like/log/env_filter.rs", "macros/src/function_like/log/env_filter/parse.rs", "book/src/filtering.md"]}
{"id": "C33", "title": "DEFMT_LOG module names match whole path segments", "statement": "A directive for module a::b never affects a::bc, and always covers every module below a::b.", "quantifier": "every pair of module paths", "why_tests_cant": "all paths", "anchors": ["macros/src/function_like/log/env_filter.rs: codegen_is_inside_of_check"]}
{"id": "C34", "title": "Symbol metadata round-trips", "statement": "Every interned string, whatever characters it contains, is recovered unchanged by the host from the symbol name the macros generate; symbol names contain neither raw control characters nor '@'.", "quantifier": "every package, tag, data and crate strings", "why_tests_cant": "all strings", "anchors": ["macros/src/construct/symbol.rs: mangle, json_escape", "decoder/src/elf2table/symbol.rs: Symbol::demangle"]}
{"id": "C35", "title": "Table construction from symbols", "statement": "Building the table yields no table exactly when the binary has no defmt data, rejects multiple version/encoding symbols, unsupported versions and a second timestamp, and otherwise maps every defmt string address to its string and tag, independent of the order of symbols in the binary.", "quantifier": "every list of symbols", "why_tests_cant": "all symbol tables and orders", "anchors": ["decoder/src/elf2table/mod.rs: parse_impl, check_version"]}
{"id": "C36", "title": "Level and println classification", "statement": "The level and text of a decoded message are the level and text of the log macro whose string its index designates (none for println!); strings of levelled log statements are never used for nested values; indices() lists exactly the log statements, and only these are accepted as messages.", "quantifier": "every binary, every table built from it, every byte string that decodes", "why_tests_cant": "all tables and byte strings", "anchors": ["decoder/src/lib.rs: Tag::to_level, get_with_level, get_without_level, indices", "macros/src/function_like/log.rs", "macros/src/function_like/println.rs"]}
{"id": "C37", "title": "Displayed frame layout", "statement": "Displaying a frame yields timestamp (if any), level (if any) and message, in that order, each separated by one space, where the message is the format string with every parameter replaced by its argument's rendering.", "quantifier": "every frame", "why_tests_cant": "all frames", "anchors": ["decoder/src/frame.rs: DisplayFrame, format_args_real"]}
{"id": "C38", "title": "Displaying a decoded frame panics in exactly three cases", "statement": "Rendering any frame obtained from decode returns text, unless somewhere in the message or the timestamp, at any depth and under the hint in force there, an unsigned integer is to be shown as an ISO 8601 instant after the year 999999, an isize in hexadecimal, or a slice under the ASCII hint that has an element for {=u8} and an element that is not a byte; in those cases it panics.", "quantifier": "every table of accepted strings, every byte string that decodes, every nesting of values and hints", "why_tests_cant": "all frames", "anchors": ["decoder/src/frame.rs"]}
{"id": "C39", "title": "Display hints are inherited by nested values", "statement": "A hint given at the outer parameter applies to every nested value without its own hint, and an inner hint wins over the outer one.", "quantifier": "every nesting of values and hints", "why_tests_cant": "nesting depth unbounded", "anchors": ["decoder/src/frame.rs: format_args_real"]}
{"id": "C40", "title": "Device text terminators are unambiguous", "statement": "Text sent by Debug2Format/Display2Format is recovered exactly: UTF-8 text never contains the 0xFF terminator.", "quantifier": "every UTF-8 text", "why_tests_cant": "all texts", "anchors": ["defmt/src/export/mod.rs: debug, display", "decoder/src/decoder.rs: Type::Debug | Type::Display"]}
{"id": "C41", "title": "Custom log format strings", "statement": "A custom output format is accepted only if it contains the {s} specifier, and every accepted format shows text segments verbatim; formatting a record never panics.", "quantifier": "every log format string and record", "why_tests_cant": "all strings", "anchors": ["decoder/src/log/format/parser.rs", "decoder/src/log/format/mod.rs"]}
{"id": "C42", "title": "Derived formats with Debug2Format/Display2Format fields round-trip", "statement": "A field marked #[defmt(Debug2Format)] or #[defmt(Display2Format)] is shown as its Debug/Display text whatever the field's type.", "quantifier": "every field type and value", "why_tests_cant": "all types", "anchors": ["macros/src/derives/format/codegen/fields.rs"]}
{"id": "C43", "title": "Logger acquire/release discipline and panic recursion", "statement": "Every log statement acquires and releases the logger exactly once, flushes nothing else, and a panic inside a panic handler cannot recurse.", "quantifier": "every statement and panic history", "why_tests_cant": "histories", "anchors": ["defmt/src/export/mod.rs", "firmware/panic-probe/src/lib.rs"]}
{"id": "C44", "title": "32-bit length and pointer-size values", "statement": "Lengths and usize/isize values are transmitted exactly when they fit 32 bits.", "quantifier": "every usize/isize value and length", "why_tests_cant": "2^64 values", "anchors": ["defmt/src/export/integers.rs: usize, isize", "decoder/src/decoder.rs"]}
{"id": "C45", "title": "Format strings mean what they say", "statement": "Every sequence of literal texts and parameters (any index, type and display hint), written down as a format string, parses to exactly those fragments, with implicit arguments numbered in order.", "quantifier": "every sequence of literals and parameters with consistent argument types", "why_tests_cant": "format strings are unbounded", "anchors": ["parser/src/lib.rs: parse, parse_param", "parser/src/types.rs", "parser/src/display_hint.rs"]}
{"id": "C46", "title": "Log statements reach the screen", "statement": "For any sequence of executed log statements, written to the transport in any pieces and received by the host in any chunks, the host shows exactly the statements' levels, timestamps, format strings and argument values, in order, and then waits for more data.", "quantifier": "every sequence of log statements with values of any Format type, every split into writes, every chunking of the stream", "why_tests_cant": "the composition crosses macro, encoder, transport framing, stream decoder and frame decoder; tests run each stage on a handful of values", "anchors": ["macros/src/function_like/log.rs", "defmt/src/encoding/rzcobs.rs", "decoder/src/stream/rzcobs.rs Rzcobs::decode", "decoder/src/decoder.rs Decoder::decode_format", "print/src/main.rs read loop"]}
{"id": "C47", "title": "Hand-written formats can delegate to other values", "statement": "A hand-written Format::format that calls another value's format method shows that value.", "quantifier": "every type with a format method, every value", "why_tests_cant": "delegation inside format is rarely used in tests and the alternatives of Option/Result/enums need the variant to be selected by the host", "anchors": ["defmt/src/impls/mod.rs default_format!", "defmt/src/traits.rs Format::_format_data", "decoder/src/decoder.rs Type::FormatSequence"]}
{"id": "C48", "title": "The host accepts exactly the wire format", "statement": "A byte string decodes to a message consuming n bytes exactly if its first n bytes are the documented encoding of that message: booleans are 0 or 1, text is UTF-8 with a 32-bit length, characters are scalar values, signed integers are two's complement, indices designate strings that may be nested, discriminants select an alternative, bit fields are stored in the smallest sufficient integer; so every byte string has at most one meaning and no message is the beginning of another.", "quantifier": "every table, every byte string, every message", "why_tests_cant": "the set of byte strings is unbounded and every nesting of types has its own layout", "anchors": ["decoder/src/decoder.rs", "book/src/encoding.md"]}
{"id": "C49", "title": "Formatting a value does not panic on the device", "statement": "Executing a log statement writes its frame and returns: no value of a type that implements Format, however nested, makes the generated code or the library's Format implementations panic.", "quantifier": "every log statement, every timestamp, every type built from the Format implementations of the crate, derives and hand-written formats, every value", "why_tests_cant": "the panicking methods are only reached through particular compositions of types, and the set of types is unbounded", "anchors": ["macros/src/derives/format.rs codegen", "defmt/src/impls/core_/mod.rs impl Format for Infallible", "defmt/src/traits.rs Format::_format_data", "defmt/src/impls/mod.rs default_format!"]}
{"id": "C50", "title": "A log statement prints what its format string and arguments say", "statement": "The text the host prints for a log statement is the format string's literals with every parameter replaced by the text of its argument: numbers in the requested base, strings verbatim or quoted, structs, enums and nested values in Rust notation, the own hint of a parameter before an inherited one; adapters print the text made on the device whatever the hint.", "quantifier": "every log statement, type, value, hint and timestamp", "why_tests_cant": "texts depend on every nesting of types, hints and format strings", "anchors": ["decoder/src/frame.rs: format_args_real", "macros/src/derives/format/codegen.rs", "defmt/src/impls/adapter.rs"]}
{"id": "C51", "title": "Library types print in Rust notation", "statement": "Ranges, options, results, durations, cells, addresses, pointers, nonzero numbers, locations, layouts, slices, arrays and tuples print in the notation of Rust's Debug or Display output, built from the texts of their parts.", "quantifier": "every such type over every part, every hint", "why_tests_cant": "the texts of the parts are unbounded and only a few types have snapshot tests", "anchors": ["defmt/src/impls/core_/", "defmt/src/impls/primitives.rs", "defmt/src/impls/tuples.rs"]}
{"id": "C52", "title": "Values of bitflags! types print the names of their flags", "statement": "A logged value of a type made by defmt::bitflags! prints the names of the enabled flags it contains, in the order of their declaration and separated by ' | ' ('(empty)' if there are none, a flag without bits only for the value 0), whatever the order of the symbols in the binary; a type without enabled flags prints the number.", "quantifier": "every bitflags! declaration with any number of flags, values and cfg attributes, every binary containing its statics, every value", "why_tests_cant": "declarations, symbol orders and values are unbounded; the only tests are two snapshot types", "anchors": ["macros/src/items/bitflags.rs", "decoder/src/elf2table/mod.rs: parse_impl", "decoder/src/frame.rs: format_u128"]}
{"id": "C53", "title": "Panic, assertion, unwrap and dbg messages say what was written", "statement": "panic!, todo!, unreachable!, assert!, assert_eq!, assert_ne! and unwrap! log one error with the user's message (or the source text of the condition, verbatim) in its documented frame, the compared values or the error shown with {:?}, and panic; they do so exactly when the condition fails and otherwise log nothing; every message that the log macros accept is accepted, and its arguments keep their meaning. dbg! logs text and value of each expression once, in order, and returns the values.", "quantifier": "every message format string, argument list, condition text and value", "why_tests_cant": "the macros splice arbitrary user strings and expression texts into their own format strings; tests use a handful of literals", "anchors": ["macros/src/function_like/panic_like.rs", "macros/src/function_like/assert_like/assert.rs", "macros/src/function_like/assert_like/unwrap.rs", "macros/src/function_like/assert_binop.rs", "macros/src/function_like/dbg.rs", "macros/src/construct.rs: escaped_expr_string", "macros/src/function_like/log/codegen.rs: Codegen::new"]}
{"id": "C54", "title": "Log statements have the location they were written at", "statement": "Every log statement in the program is shown with its own file (relative to the current directory when inside it), line and the path of modules and functions around it; nothing else gets a location; reading the debug information fails with an error and never panics; locations are shown for all statements of the table or for none.", "quantifier": "every tree of debug information, any depth and number of units, every symbol table, every frame, every directory", "why_tests_cant": "debug information trees are unbounded; the tests look at a few statements of one program", "anchors": ["decoder/src/elf2table/mod.rs: get_locations, file_index_to_path, exprloc2address", "print/src/main.rs: location_info, run", "decoder/src/lib.rs: Table::indices"]}
{"id": "C55", "title": "Frames reach the output of the host unchanged", "statement": "What the program logs is printed by defmt-print, each statement once, in order and with its own time, level, place and message: as a line of the chosen log format, or with --json as one line that is a JSON document with exactly these values; println! statements print their message only; level and time survive the trip through the log facade; messages of the host itself go to the standard error and only if asked for; damaged frames do not disturb the rest of the output.", "quantifier": "every program, sequence of statements, argument values, chunking of the stream, time of the host, log format, location table and byte text", "why_tests_cant": "messages may contain any characters, including quotes, control characters and JSON; the tests print a few ASCII messages and never read the JSON back", "anchors": ["decoder/src/log/mod.rs: log_defmt, DefmtRecord, is_defmt_frame, timestamp_and_level_from_frame", "decoder/src/log/stdout_logger.rs: log, print_defmt_record, print_host_record", "decoder/src/log/json_logger.rs: log, create_json_frame, create_module_path", "print/src/main.rs: run, forward_to_logger"]}
{"id": "C56", "title": "A defmt_test suite runs its tests in order and reports success only if all pass", "statement": "#[tests] accepts exactly the modules the documentation describes; the generated program announces the number of compiled tests, calls init once, then for every test in order of definition before_each, the test and after_each, each with the shared state if it asks for it, then teardown; a test passes if its outcome is the one asked for (should_error), the first failure ends the run with a message that shows the outcome, tests marked ignore are announced but not run, and the device reports success if and only if nothing failed.", "quantifier": "every module (attributes, signatures, types, items), configuration, behaviour of the functions on the machine and state of the machine", "why_tests_cant": "the tests run one module; hooks, conditions, types of the state, duplicate attributes and failing hooks multiply", "anchors": ["firmware/defmt-test/macros/src/lib.rs: tests_impl, check_fn_sig, get_mutable_reference_type, extract_cfgs", "firmware/defmt-test/src/lib.rs: TestOutcome", "firmware/defmt-test/src/export.rs: check_outcome, exit"]}
{"id": "C57", "title": "defmt-print shows all that arrives and ends with the stream", "statement": "From any source, defmt-print shows every frame it receives, in order, once, and ends with success when the stream ends; the ELF file is read once. With --watch-elf it goes on after the ELF file was replaced, with the new table and an empty buffer, without being restarted.", "quantifier": "every table, encoding, byte stream, cutting of the stream into reads, source, and interleaving with replacements of the ELF file", "why_tests_cant": "end of stream, replacement of the file and cutting of reads are events of the operating system that the tests do not produce", "anchors": ["print/src/main.rs: main, Source::read, run, run_and_watch, has_file_changed"]}
{"id": "C58", "title": "qemu-run prints every frame and reports how QEMU ended", "statement": "qemu-run prints each frame of QEMU's output as one line, in order, including what is still in the pipe when QEMU has ended; its exit code is that of QEMU, 1 if the output cannot be decoded, and 0 only if QEMU ended with success.", "quantifier": "every table, encoding, output, cutting into reads, moment at which the end is noticed, and exit status", "why_tests_cant": "the tests see only a few programs that end regularly; the end of QEMU races with reading its output", "anchors": ["qemu-run/src/main.rs: main, notmain, decode"]}
{"id": "C59", "title": "All contexts share one RTT channel without loss", "statement": "On a device with defmt-rtt and a connected host, any number of threads, interrupt handlers and cores log through one channel: a context writes to it only inside the critical section and while no other write or flush is in progress; at every moment the bytes at the host, in the buffer and still to be written are together exactly the bytes of the messages in the order of their release; when flush returns the host has everything logged so far; in every fair run all statements return and everything arrives, for every buffer of at least two bytes.", "quantifier": "every number of contexts, every program, every interleaving of contexts, channel and host at the level of memory accesses, every buffer size and splitting of the encoder's output", "why_tests_cant": "interleavings are unbounded and the hardware tests run one context", "anchors": ["firmware/defmt-rtt/src/lib.rs: RttEncoder", "firmware/defmt-rtt/src/channel.rs", "defmt/src/encoding/rzcobs.rs", "defmt/src/lib.rs: flush"]}
{"id": "C60", "title": "Every statement of every context is printed on the terminal", "statement": "From the log statements of all contexts of a device, through encoder, logger, RTT buffer, host, stream decoder, frame decoder, formatter and log facade, to the standard output of defmt-print: at every moment the terminal shows one line per statement, those of each context in program order and without gaps, and nothing else; in every fair run it finally shows all of them, and defmt-print ends with success when the input ends.", "quantifier": "every program, statement, argument type and value, number of contexts, schedule, buffer size, chunking and moment", "why_tests_cant": "the composition of all crates is only tested by running a few programs with one context under QEMU", "anchors": ["firmware/defmt-rtt/src/lib.rs", "firmware/defmt-rtt/src/channel.rs", "defmt/src/export/mod.rs", "decoder/src/stream/rzcobs.rs", "decoder/src/frame.rs", "decoder/src/log/", "print/src/main.rs"]}
{"id": "C61", "title": "Linked programs mean to the host what their macros say", "statement": "If a program (any number of log, println, write, derive, intern, internp, bitflags, timestamp, global_logger and panic_handler invocations in any crates) is linked with defmt.x, then the decoder accepts the binary, with the encoding chosen by the features; every used string has its own 16-bit index, at which the host finds its text and its level, and the host finds nothing else; the indices between the markers of a level are those of its log statements; the timestamp of the host is the one of the program; flags of bitflags types are known even if unused; an executed statement decodes to itself; the logger functions, the timestamp and the panic handler are each defined exactly once or are the defaults, and duplicate definitions, duplicate symbols and missing loggers are link errors.", "quantifier": "every program, features, order of symbols in the file, other symbols, liveness of strings", "why_tests_cant": "the layout is made by a linker script from all crates of a program; tests link a few programs with a few strings", "anchors": ["defmt/defmt.x.in", "defmt/build.rs", "macros/src/construct.rs: static_variable, linker_section, mangled_symbol_name", "macros/src/items/bitflags.rs", "macros/src/items/timestamp.rs", "macros/src/attributes/global_logger.rs", "macros/src/attributes/panic_handler.rs", "defmt/src/lib.rs: DEFMT_ENCODING_SUPPORT, defmt_version", "decoder/src/elf2table/mod.rs: parse_impl"]}
{"id": "C62", "title": "A program may have up to 65534 interned strings", "statement": "The assertion of the linker script rejects exactly the programs with more interned strings than the message says (65534); the values of bitflags flags, which are in .defmt.end, come after the end marker and use none of the indices; they are kept even if unused.", "quantifier": "every program that is otherwise fine", "why_tests_cant": "needs programs with thousands of strings or flags", "anchors": ["defmt/defmt.x.in", "macros/src/items/bitflags.rs: codegen_flag_statics"]}
{"id": "C63", "title": "From the macros in the source to the lines on the terminal", "statement": "Every linked program, run on a device with defmt-rtt with any number of contexts, is understood by defmt-print reading the ELF file of the program: finally the terminal shows every executed statement of every context once, in the order of its context, with the level of its macro, the text of its own format string with the values of its arguments, and the time by the program's timestamp, and nothing else.", "quantifier": "every program, layout, statement, argument, number of contexts, fair schedule, buffer size and chunking", "why_tests_cant": "composition of all components; tests run a few programs", "anchors": ["defmt/defmt.x.in", "macros/src/construct.rs", "decoder/src/elf2table/mod.rs", "firmware/defmt-rtt/src/lib.rs", "decoder/src/frame.rs", "print/src/main.rs"]}
{"id": "C64", "title": "The RTT channel needs no stronger memory than its Release store", "statement": "If the stores of the device reach the memory late and in any order that the memory orderings of the code allow (stores to one place in order, the store of the write offset after all older stores, younger stores possibly before it), then the host still gets exactly the bytes written, in order and without gaps; nothing faults; a flush returns only when the host has everything; fair runs deliver everything; the lines on the terminal are those of C60. With a Relaxed store of the write offset this is false.", "quantifier": "every buffer size, content, list of writes and flushes, number of contexts and order in which stores reach the memory", "why_tests_cant": "weak memory effects are rare and depend on the processor; tests run on one core type or under qemu", "anchors": ["firmware/defmt-rtt/src/channel.rs: write_impl, blocking_write, flush"]}
{"id": "C65", "title": "A test suite in QEMU succeeds if and only if all its tests pass", "statement": "A module of tests, compiled by #[tests], run in QEMU with defmt-semihosting and read by qemu-run: the terminal shows the lines of the script of the suite in order (progress of each test, all tests passed!), in between the lines of its functions, and in case of a failure the message of it as the last line; if the panic handler of the program ends QEMU with a failure and QEMU is not killed, the exit code of qemu-run is 0 if and only if no function panicked and every test had the outcome asked for, and then every test that is not ignored was run and passed.", "quantifier": "every module, configuration, behaviour of the functions, log statements in them, argument types and values, encoding, cutting of the output into reads and moment at which the end is noticed", "why_tests_cant": "composition of macro, harness, logger, encoder, stream decoder, formatter and runner; the tests run one module once", "anchors": ["firmware/defmt-test/macros/src/lib.rs: tests_impl", "firmware/defmt-test/src/export.rs: check_outcome, exit", "firmware/defmt-semihosting/src/lib.rs", "qemu-run/src/main.rs: notmain, decode"]}
{"id": "C66", "title": "A host that attaches late gets everything logged afterwards", "statement": "A device with defmt-rtt runs without a host, hosts attach and detach any number of times. A host that attaches at any moment, and touches the channel only when the non-waiting write in progress (if any) has ended, gets one gapless piece of what all contexts log, beginning not later than the attaching; nothing faults; in fair runs all statements return and everything to the end arrives. On the terminal at most one event stands for the remains of a message cut by the attaching; then follow the lines of complete statements, and every statement that is not shown had begun before the host attached. If what was logged before the first host came is shorter than the buffer, everything is shown. If the host reads before such a write has ended, statements logged later can be lost, although they wait for the host and flush returns.", "quantifier": "every number of contexts and programs, every moment of attaching and detaching, every interleaving, buffer size, message, cutting of the input", "why_tests_cant": "the moment of attaching relative to the accesses of a write cannot be chosen on hardware; the snapshot tests run in QEMU with semihosting", "anchors": ["firmware/defmt-rtt/src/channel.rs: write_all, nonblocking_write, blocking_write, host_is_connected", "firmware/defmt-rtt/src/lib.rs: _SEGGER_RTT", "decoder/src/stream/rzcobs.rs", "print/src/main.rs"]}
{"id": "C67", "title": "The test runner reports every failure", "statement": "A run of cargo xtask makes every check of its subcommand whatever the other checks give (but for the tests with the old decoder when that cannot be built), its exit status is success if and only if every check passed, and the errors it lists are those of the failed checks in order. A snapshot check passes only if the program ended with success and printed exactly the text in the file. After a successful run with --overwrite a run without it succeeds. It panics only if the tool chain or the built runner is missing. test-all makes the checks of all subcommands but test-ui; a single snapshot test is the same check as in the run of all but for the two programs that need a feature, which then fail. Both versions of defmt are compiled for three targets with every feature that the compiler has; --deny-warnings and --skip-ui-tests reach exactly the compilations they are for.", "quantifier": "every result of every command, every file content, compiler version, option and earlier history", "why_tests_cant": "the tests are what is run; nobody tests the runner against failing tests", "anchors": ["xtask/src/main.rs: main, do_test, test_*", "xtask/src/snapshot.rs: test_snapshot, test_single_snapshot, all_snapshot_tests", "xtask/src/backcompat.rs: test, QemuRun", "xtask/src/utils.rs", "xtask/src/targets.rs: install, uninstall"]}
{"id": "C68", "title": "Arguments are evaluated once, in order, before the logger is taken", "statement": "The code generated for a log statement, println! or write! evaluates each argument exactly once, from left to right, whether the level is enabled or not, and only then (if it is) takes the logger and writes one frame with exactly these values; what the arguments do with the logger comes before the frame. If an argument returns, breaks or panics, so does the statement, and the logger is untouched. assert!, unwrap!, assert_eq!/assert_ne! evaluate their operands once and the arguments of the message only on failure; the debug_ variants do nothing without debug assertions; dbg! evaluates and reports one expression after the other and hands the values out. No macro evaluates an expression more often than it is written. Expressions that avoid the names bound by the macros have the values they have outside. Exceptions: the expressions of timestamp! are evaluated while the logger is held, inside a function with its own S and fmt, so that logging in them never ends and return leaves the frame without timestamp.", "quantifier": "every state, every behaviour of the expressions (effects, nested log statements, return, panics), every format string, filter and scope", "why_tests_cant": "tests log pure values; the order of effects and early exits inside macro arguments is not observed", "anchors": ["macros/src/function_like/log.rs: expand_parsed", "macros/src/function_like/log/codegen.rs: Codegen", "macros/src/function_like/println.rs", "macros/src/function_like/write.rs", "macros/src/function_like/panic_like.rs", "macros/src/function_like/assert_like/assert.rs", "macros/src/function_like/assert_like/unwrap.rs", "macros/src/function_like/assert_binop.rs", "macros/src/function_like/dbg.rs", "macros/src/items/timestamp.rs", "macros/src/lib.rs: debug_assert_", "defmt/src/export/mod.rs: acquire_and_header", "defmt/src/export/traits.rs: into_result"]}
{"id": "C69", "title": "A type implements Format exactly if it unfolds to a finite description", "statement": "The code generated by derive(Format) implements Format for exactly those instances of a definition whose bounds hold and whose fields can be shown: fields written as a primitive type need nothing, fields with an option need Debug or Display, all others need Format; together with the implementations of the library, T: Format can be resolved exactly if unfolding definitions gives T a finite description, which is unique, and the interned string and the calls of the generated code are those of the description. Each statement of the code works on the field of its position, demands nothing that is not in the where clause, and the where clause demands nothing else. A definition is accepted exactly if it is no union, its defmt attributes are lists of crate = path, and each field has at most one defmt attribute, a non-empty list of options. Exceptions: recursive types never implement Format; of several options the last counts; attributes of variants are ignored; raw identifiers keep their r#.", "quantifier": "every definition (structs, enums, generics, attributes, bounds), every crate of definitions, every type over them", "why_tests_cant": "types, instances and attribute lists are unbounded; tests derive a few types", "anchors": ["macros/src/derives/format.rs: expand, defmt_crate_path", "macros/src/derives/format/codegen.rs: encode_struct_data, Generics::codegen", "macros/src/derives/format/codegen/fields.rs: codegen, get_defmt_format_option, as_native_type", "macros/src/derives/format/codegen/enum_data.rs: encode", "defmt/src/impls"]}
{"id": "C70", "title": "The macros accept exactly what is documented", "statement": "Each macro of defmt accepts a list of tokens exactly if it is written as documented (a string literal and arguments separated by commas, with or without a last comma; a condition or two operands before it for the assertions; a formatter before it for write!; items of bitflags! separated by semicolons) and takes it apart that way: every token belongs to the part it was written in, commas inside an expression do not separate, and the attributes taken over to a flag are those named cfg, in order. The attribute macros accept exactly functions of the form fn() -> ! without a conflicting attribute and non-generic unit structs, without arguments, and generate the four functions of the logger and the exported panic function. (Except: the visibility of the panic handler is dropped, and a conflict written #[unsafe(no_mangle)] is not seen.)", "quantifier": "all token lists of any length and nesting, all parsers for expressions and types that take a prefix and do not look past a separator, all functions and structs", "why_tests_cant": "Compile-fail tests try a handful of inputs; acceptance ranges over all token lists and all expressions.", "anchors": ["macros/src/function_like/log/args.rs Args::parse", "macros/src/function_like/write/args.rs Args::parse", "macros/src/function_like/assert_like.rs Args::parse", "macros/src/function_like/assert_binop/args.rs Args::parse", "macros/src/function_like/dbg/args.rs Args::parse", "macros/src/items/bitflags/input.rs", "macros/src/attributes/panic_handler.rs", "macros/src/attributes/global_logger.rs"]}
{"id": "C71", "title": "The build scripts hand the right settings to compiler and linker", "statement": "DEFMT_RTT_BUFFER_SIZE builds exactly when it is a decimal numeral of a number that fits into usize of host and target, and the channel then has that size (1024 without it); with every size but 0 and 1 the channel delivers everything. panic-probe builds exactly for Cortex-M targets and switches the usage fault off exactly where there is one. The text of defmt.x.in, after build.rs has taken out the default panic line if that is asked for, says what the claims about linking (C61 to C63) assume: sections, order, start address, limit, provided and required symbols. (Except: sizes 0 and 1 are accepted although the device then faults or blocks for ever, a value that is not Unicode is ignored, the check of defmt-itm against Cortex-M0 never fires, and with the feature alloc defmt does not compile for a target without compare-and-swap that build.rs does not list, such as riscv32im-unknown-none-elf.)", "quantifier": "every value of the environment variable, every target name, every set of features, every script text for the removal of the line", "why_tests_cant": "Build scripts run on the build machine with the settings of one user; tests build with the default settings.", "anchors": ["firmware/defmt-rtt/build.rs main", "firmware/panic-probe/build.rs main", "firmware/panic-probe/src/lib.rs hard_fault", "firmware/defmt-itm/build.rs", "firmware/defmt-itm/src/lib.rs", "defmt/build.rs main", "defmt/defmt.x.in"]}
{"id": "C72", "title": "The level of a frame can be read off its index", "statement": "The ranges of IdRanges::get() contain an index exactly if it is the index of a string of a log statement of that level, so that a logger that looks at the first two bytes of a frame sees the level that the host will show for it; the ranges are disjoint, and neither println nor nested strings are in any of them.", "quantifier": "every program that links, every string and frame of it", "why_tests_cant": "depends on the order in which the linker places thousands of sections, for every program", "anchors": ["defmt/src/lib.rs: IdRanges::get", "defmt/defmt.x.in", "decoder/src/lib.rs: Table::decode"]}
{"id": "C73", "title": "The JSON output is read back by the schema crate", "statement": "A program that reads the standard output of defmt-print --json with the types of defmt-json-schema (first line the version, then one JsonFrame per line, as in the example of that crate) gets, without an error, one frame for each frame of the stream that is not damaged, in order, with its message, level, timestamp, the time of the host, and its file, line and module path taken apart into crate, modules and function. Frames are read whatever the order of their fields and whatever unknown fields are added. (Except: with --show-skipped-frames or -v the notes on damaged frames are on the standard output as well, and the reader panics.)", "quantifier": "every program, stream, damage, message, location, time of the host between 1677 and the far future", "why_tests_cant": "texts with quotes, control characters and module paths of any form; tests read one file", "anchors": ["decoder/defmt-json-schema/src/lib.rs: SchemaVersion, JsonFrame, Location, ModulePath", "decoder/defmt-json-schema/examples/simple.rs: main, handle_v1", "decoder/src/log/json_logger.rs: log, create_json_frame, create_module_path, print_schema_version", "print/src/main.rs: run"]}
{"id": "C74", "title": "A message costs what its types say", "statement": "The number of bytes of a message is two for the statement, what the arguments of the timestamp take and what its own arguments take, where what a value takes is given by its type: the width of numbers (four for usize, isize and char, one for a bool), four bytes and the length for texts and byte slices, two for interned texts, two for the tag of every component that is not of a known primitive type and one tag for all elements of a list, the least number of bytes for the choice of a variant, the least integer covering a bitfield, two bytes for each write! of a hand-written format and two to end it. It does not depend on addresses. Every statement that is shown as something has exactly one such size; with rzCOBS it is on the line in at most one byte more per 134 and two (three for the first). A typed parameter saves two bytes over {}, {=[?]} two over {}, {=[?;N]} four over {=[?]}, {=[u8]} two over {=[?]}, {=[u8;N]} four over {=[u8]}, {=istr} two and the length over {=str}, wherever it is in a string. The book's figure of 43 bytes for a str of 43 bytes and its remark that booleans are compressed into one byte are wrong.", "quantifier": "all format strings, arguments of all types nested to any depth, timestamps, addresses, positions of the exchanged parameter, histories of the line and ways to cut a message into writes", "why_tests_cant": "Snapshot tests compare texts on the host; a longer encoding that both sides agree on changes no snapshot.", "anchors": ["book/src/format-slices.md", "book/src/istr.md", "book/src/primitives.md", "book/src/ser-array.md", "book/src/ser-bitfield.md", "defmt/src/export/mod.rs", "defmt/src/export/integers.rs", "macros/src/function_like/log/codegen.rs"]}
{"id": "C75", "title": "Timestamps follow the order of messages", "statement": "A timestamp is evaluated while the logger is held, so the timestamp of a message is evaluated after those of all messages before it, whatever contexts log. With the book's atomic counter the messages are numbered consecutively (modulo 2^32); with its hardware timer every timestamp is a value the timer had during the evaluation, and timestamps do not go back before the timer wraps. The book's extension of a 32-bit timer to 64 bits by an overflow interrupt yields a true time wherever it is evaluated with interrupts enabled and no interrupt is lost, and its loop ends after a round without a wrap-around; used in timestamp!, where interrupts are masked, it is right as long as the timer does not wrap while a message is being sent, and otherwise the time goes back by 2^32.", "quantifier": "all programs of any number of contexts that log, read the time or do other work, all interleavings with the timer and its interrupt, all times below 2^64", "why_tests_cant": "A wrong timestamp needs a wrap-around of a 32-bit timer (71 minutes at 1 MHz) within the few microseconds of one log statement.", "anchors": ["book/src/timestamps.md", "defmt/src/export/mod.rs", "macros/src/items/timestamp.rs", "firmware/defmt-rtt/src/lib.rs"]}
{"id": "C76", "title": "The message of a panic is the last line of the terminal", "statement": "On a single core with panic-probe (print-defmt) and defmt-rtt: if a context panics between log statements, then whatever all the contexts were doing, the panic message is sent whole, the processor comes to rest in the hard fault, and the terminal of defmt-print finally shows all earlier messages of the panicking context, of every other context a gapless beginning, and as the last line the panic message; without a panic it shows everything. (A panic inside a log statement prints nothing: the logger is taken, the handler fails on it, and no context sends another byte.)", "quantifier": "every program of any number of contexts, panicking anywhere or nowhere, every schedule in which a critical section keeps the core and a panic ends interrupts, buffer size, encoding, chunking", "why_tests_cant": "needs a panic at every point of every interleaving with a full channel; the snapshot tests panic in one context at fixed places", "anchors": ["firmware/panic-probe/src/lib.rs: panic, print_defmt", "firmware/defmt-rtt/src/lib.rs: Logger", "defmt/src/export/mod.rs: panic"]}
{"id": "C77", "title": "The format string parser accepts exactly a grammar", "statement": "A format string is accepted, and taken apart into given fragments, exactly if the grammar of format strings gives it that meaning and its arguments are 0..n with one type each. In the grammar a string is made of literal texts and parameters; a parameter is an optional index, an optional type after =, an optional hint after :; numbers are decimal digits (leading zeros allowed); [u8;N] and [?;N] may have spaces before the length, bit ranges are non-empty within 0..128; a hint is an optional #, an optional 0 with a number of columns, and a name, and only radix hints use the first two; in forwards compatible mode every other non-empty text is a hint. Literal text has its braces doubled, except that closing braces may be single in pairs separated by {{ only (C20). (A single opening brace inside a hint, possible only in unknown hints and internal bitflags hints, begins another parameter with the same closing brace.)", "quantifier": "all byte strings up to usize::MAX bytes, both parser modes, all lists of fragments", "why_tests_cant": "tests try accepted and rejected samples; which of the infinitely many other strings are accepted, and as what, is left open by them", "anchors": ["parser/src/lib.rs: parse, parse_param, push_literal, parse_range, parse_array", "parser/src/display_hint.rs: DisplayHint::parse", "parser/src/types.rs: FromStr for Type", "book/src/hints.md"]}
{"id": "C78", "title": "What a macro says arrives, whatever its arguments do", "statement": "Executing the code that a logging or panicking macro generates, with arguments that may change the state of the program and may log themselves: first everything the condition, the operands and the arguments do with the logger, in order, then exactly one frame, and for the panicking macros after it the panic. The host decodes this frame to the end, and prints the documented text (panicked at '...', the text of the condition, both operands, the error) with the values that the arguments had when they were evaluated, with or without timestamp!. dbg! does so for every expression before the next one is evaluated.", "quantifier": "all expressions (with any effect on the program's state and any log statements of their own), all messages that the macros accept and whose arguments can be formatted, all texts of conditions, all tables and addresses, every timestamp! whose expressions write nothing", "why_tests_cant": "the snapshot tests use arguments without effects; the text, the order of effects and the decoding are only right together", "anchors": ["macros/src/function_like/log.rs: expand_parsed", "macros/src/function_like/panic_like.rs: expand", "macros/src/function_like/assert_like/assert.rs: expand", "macros/src/function_like/assert_like/unwrap.rs: expand", "macros/src/function_like/assert_binop.rs: eq, ne", "macros/src/function_like/dbg.rs: expand", "decoder/src/frame.rs: display_message"]}
{"id": "C79", "title": "Symbol names are read as JSON, exactly", "statement": "The host takes a name of the symbol table as a symbol y exactly if the name is, by the grammar of RFC 8259, a JSON text of y: an object, with white space anywhere, whose members are the fields of y in any order, none of them twice, crate_name missing or null or a string, the others strings, every character plain or as any of its escapes, and any other members with any values between them; or an array of the five values in order. Every other name is an error, no name is two symbols, and what the macros write is a text of the symbol they mean.", "quantifier": "all byte strings, values nested to any depth, all symbols", "why_tests_cant": "tests read what the macros of the same version write; which other names of a binary are taken for symbols of defmt, and as what, they do not see", "anchors": ["decoder/src/elf2table/symbol.rs: Symbol::demangle", "macros/src/construct/symbol.rs: mangle", "decoder/src/elf2table/mod.rs: parse_impl"]}
{"id": "C80", "title": "The test runner leaves the installed targets as they were", "statement": "A run of cargo xtask never removes a compilation target that was installed before it, whatever happens. If it does not panic and rustup can remove targets, then without --keep-targets exactly the same targets are installed afterwards; with it exactly the five required targets are added, by the subcommands that compile for targets and no others. Every check of these subcommands is made while all five are installed. (After a panic they are left behind, and if they cannot be removed the run still ends with success.)", "quantifier": "every set of installed targets, every result of every command, every option and earlier history, for a rustup whose list of targets is right", "why_tests_cant": "on the machines of the tests all targets are installed already or the machine is thrown away; which targets are gone after a run is not looked at", "anchors": ["xtask/src/targets.rs: install, get_installed, uninstall", "xtask/src/main.rs: main"]}
