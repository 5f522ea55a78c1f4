# Formal model of knurling-rs/defmt in Rocq (Coq 8.16.1)

The model covers the path of a log statement from the macro to the screen: the code the macros
generate, the bytes on the wire, the transport, the symbols and debug information in the binary, the
decoder, the printed text and the programs around it (test harness, defmt-print, qemu-run).
`properties.jsonl` lists what should hold, `MANIFEST.json` which theorems settle it.

## Trusted base

* Coq's kernel (8.16.1) and `vm_compute` (concrete examples, witnesses of refutations).
* What `Print Assumptions` lists. Every theorem in a `Prop_*.v` file is followed by
  `Print Assumptions`, and each of them answers *Closed under the global context*: no axiom is used.
  The tools that inspect compiled files also list seven axioms of the standard library module
  `Coq.ssr.ssrunder` (`Under_rel.*`); they are in the closure of the loaded libraries (`Lia`,
  `ssreflect` plumbing), and no theorem depends on them.
* That the Gallina model says what the Rust code does. It is written by hand from the text of /repo;
  every definition cites file and lines and says where it simplifies. Nothing of /repo was built or run.
* The description of what is outside of the repository (see "Boundary").

No axioms, functors, module types or plugins of our own; no `Admitted`; no kernel check is switched off.

## Conventions of the model

* Bytes and all integers are `Z`; a Rust `u8` is a `Z` in `0..256`. Byte strings are `list Z`.
* A Rust `str` is its UTF-8 byte list. All delimiters used by the code are ASCII, for which searching
  bytes and searching chars is the same; where slicing at a non char boundary panics in Rust, the
  model has an explicit panic.
* Panics are values: `outcome E A := Ok | Err | Panic | NoFuel`, or `None` for texts. Recursion that is
  not structural has fuel, and theorems show that it does not run out.
* The device is 32-bit (`usize`, pointers), the host 64-bit.
* Model files (`*Model.v`) contain no proofs. Specifications (`*Spec.v`) do not use the functions of the
  model where that can be avoided: relations on values, texts and bytes. `Prop_*.v` contain the theorems
  that count, each with a concrete case beside it.
* When the code violates a property, a theorem `..._refuted` exhibits it, and the property is proved
  for everything else, if possible as an exact characterisation. Such properties are "partial" in
  the manifest although nothing is left unproved.

## Files (rocq/theories)

| model | code | properties |
|---|---|---|
| `Base`, `Utf8`, `Numerals` | bytes, UTF-8, printing of numbers | |
| `RzcobsModel` | defmt/src/encoding, rzcobs decoder | C01-C04 |
| `StreamModel` | decoder/src/stream, loop of print/src/main.rs | C05-C09 |
| `DecoderModel` | decoder/src/lib.rs, decoder.rs | C10-C12, C36, C48 |
| `ParserModel` | parser/src | C18-C22, C45, C77 |
| `EncodeModel` | macros (log, write, derive), defmt/src/export, impls | C13-C17, C40, C42, C44, C46, C47 |
| `PanicModel` | the same code with its `unreachable!()` | C49 |
| `DisplayModel` | decoder/src/frame.rs, DisplayFrame | C16, C23-C27, C37-C39 |
| `TextSpec`, `LibTypesModel` | all of the above end to end; defmt/src/impls/core_ | C50, C51 |
| `FlagsModel` | macros/src/items/bitflags.rs | C26, C52 |
| `MacroModel` | panic!, assert!, unwrap!, dbg! and relatives | C53 |
| `RttModel` | firmware/defmt-rtt/src/channel.rs | C28-C30 |
| `LoggerModel` | defmt-rtt, defmt-itm, defmt-semihosting, panic-probe | C31, C43 |
| `EnvFilterModel` | macros/src/function_like/log/env_filter.rs | C32, C33 |
| `SymbolModel`, `TableModel` | macros/src/construct/symbol.rs, decoder/src/elf2table | C34-C36, C79 |
| `LocationModel` | locations from debug information | C54 |
| `LogFormatModel` | decoder/src/log/format | C41 |
| `SinkModel` | decoder/src/log, JSON schema | C55 |
| `HarnessModel` | firmware/defmt-test | C56 |
| `HostModel` | print/src/main.rs, qemu-run/src/main.rs | C57, C58 |
| `DeviceModel` | `LoggerModel` and `RttModel` put together: contexts, encoder, channel, host | C59, C60 |
| `LinkModel` | macros/src/construct.rs (statics), defmt/defmt.x.in, encoding features | C61-C63 |
| `WeakModel` | firmware/defmt-rtt/src/channel.rs, stores that arrive late and out of order | C64 |
| `SuiteModel` | `HarnessModel`, `LoggerModel` (semihosting) and qemu-run put together | C65 |
| `AttachModel` | `DeviceModel` with hosts that come and go (channel.rs:22-107, lib.rs:82-97) | C66 |
| `XtaskModel` | xtask/src | C67, C80 |
| `ExpandModel` | the code generated by all function-like macros, as syntax with an evaluator (macros/src/function_like, macros/src/items/timestamp.rs, defmt/src/export/mod.rs:212-226) | C68, C78 |
| `ImplModel` | derive(Format) over definitions: attributes, where clauses, match arms (macros/src/derives/format.rs, format/codegen); the clauses of all Format implementations (defmt/src/impls) and their resolution | C69 |
| `SyntaxModel` | the input of the macros: token lists, argument parsers of all function-like macros, bitflags! items, checks of panic_handler and global_logger (macros/src/function_like/**/args.rs, items/bitflags/input.rs, attributes) | C70 |
| `BuildModel` | build scripts of defmt, defmt-rtt, panic-probe and defmt-itm, the text of defmt.x.in and a reader for it (defmt/build.rs, defmt/defmt.x.in, firmware/*/build.rs) | C71 |
| `RangesModel` | `IdRanges::get` (defmt/src/lib.rs:424-467) | C72 |
| `SchemaModel` | the types of defmt-json-schema with derived `Serialize` and `Deserialize`, and the reader `examples/simple.rs` | C73 |
| `SizeSpec` | (relations only, over `EncodeModel`) bytes taken by values, arguments and messages, by type; `book/src/format-slices.md`, `istr.md`, `primitives.md`, `ser-*.md` | C74 |
| `ClockModel`, `ClockSpec` | `book/src/timestamps.md` (counter, timer, 64-bit extension), evaluated between `acquire` and `release` (`defmt/src/export/mod.rs:212-226`); timer, overflow interrupt and masking on one core | C75 |
| `HaltModel` | `firmware/panic-probe/src/lib.rs:43-59` on one core: who may have the core during critical sections and after a panic, fair runs; programs that panic between log statements. Handler and loggers are those of `LoggerModel`, the channel that of `DeviceModel` | C76 |

`ConformBase.v` and `Conform_*.v` are no claims: they check the model against the repository's own tests, by
computation. They contain the unit tests of the parser, the decoder, rzCOBS, the encoder
(defmt/tests/encode.rs), the DEFMT_LOG filter, the error messages of defmt/tests/ui and of
defmt-test/macros/tests/ui, and all snapshot tests (each statement of firmware/qemu/src/bin/*.rs goes
through the models of macros, device, decoder and display, and the result is compared with the `.out`
file; tests/defmt-test.rs is in `HarnessExamples`). `Conform_Book.v` has the examples of the book for display
hints, log formats and DEFMT_LOG. They found one error of the model: dates after the
year 9999 are shown (C25, feature `large-dates`); and two of the findings for C41.

`*Spec.v`, `*Proofs.v`, `*Main.v` and similar belong to the model of the same prefix; `*Examples.v` are
concrete cases. `Prop_*.v` are named after the model.

## How the proofs go

* C01-C04: the encoder state machine per byte; an invariant relates buffer, zero mask and run length
  to a closed form of the decoded string.
* C05-C09: arbitrary histories of `received`/`decode` against "cut at zero bytes, decode each piece".
* C10-C12, C48: every reader is prefix-closed; the wire format is an inductive relation, proved
  equivalent to the decoder in both directions.
* C13-C17, C40-C47: values and types as inductive types; mutual induction over values, encoder and
  decoder; `frame_means` relates Rust values to decoded arguments.
* C18-C22, C45: induction over the scan; format strings as lists of literals and parameters
  (`FormatSpec`), written and read back.
* C23-C27, C37-C39: numerals by parse-back; the calendar by day counting; hints along paths.
* C28-C30: small steps of device and host on shared memory, one memory access each; the unread region is
  a suffix of what was written; the device alone (`RttGone`: the host has left) gets as far as the buffer
  allows and never past a flush. C31, C43: contexts under any schedule with critical sections.
* C32, C33: directives as documented against the filter.
* C34-C36, C52: JSON text written and read back; tables over symbol lists.
* C41, C55: log format strings as lists of segments; records and JSON documents written and read back.
* C50, C51, C53: `says`/`reads`: the text of a statement read off values and types only; concatenation
  lemmas build the messages of macros and library types.
* C54: trees of debug entries against the namespaces around each statement.
* C56: roles of functions as documented, scripts of steps, performances of scripts. The messages: each is that of a fault (`HarnessFaults`); the 32 compile tests of the repository are examples.
* C59, C60: the device refines both the logger (one context at a time in a frame) and the channel; the
  stream of the host is then an input of `TextMain`. Fair runs exist and deliver every frame.
* C61-C63: the linker script is run on the list of statics; placement is shown to be an injection into
  16-bit indices that keeps levels apart; the section is then an input of `TableMain` and C60.
* C64: what the device has stored and what has arrived are two states; the device's view runs the sequential
  channel, the host may see an older write offset (`lax_step`); the invariant of C28 covers that.
* C65: the events of the harness give the frames; texts are unique (`reads_unique`), so the script gives the lines.
* C66: while no host is attached the buffer holds the last bytes of the stream (`loose`); a session from there is a run of
  C59 with the bytes lost before put in front (`padded`); the stream is then cut at the first separator.
  What the frames look like is a premise of `AttachMain` (`shows`), for the default format, any format and JSON (`AttachFormats`).
  `LinkSessions` starts from the macros of a linked program (C66_program, C76_program).
* C80: `XtaskTargets` folds the rustup commands over the events (`targets_after`); `shape` lists the six forms that the events of a
  run can have, everything else in it does not touch rustup (`quiet`).
* C67: each test is a step of a state monad over the events of the run; `does` composes them against a plan.
* C68: evaluator for the generated code; one lemma per shape of code, the counts by induction on the code.
* C69: resolution and description are both inductive; each direction by induction on the other, with an exact description of what the loops of the macro collect.
* C70: one lemma about `parse_terminated` for any item parser; each parser equivalent to an inductive grammar.
* C71: numerals by the lemmas of the parsers; targets by lemmas about prefixes up to the first dash; the script is one closed computation per feature.
* C72: from the order of the linker script (C61_levels) and the entry behind a decoded frame (C36).
* C73: the written JSON is read back as a value (C55_json_exact); reading the fields of a struct depends only on the multiset of the fields. C73_program composes this with C63 (`ProgramJson`): the frames of a finished run (`frames_in_the_end`, either encoding) are told to the consumer.
* C74: mutual induction on the size relations (sizes of the written bytes), on `means` (every statement has a size), and the list of wire types for the exchange of one parameter.
* C75: invariants of all runs, one part global and one per place of a context in its program (`ClockProofs.inv`); the counterexample is a run of 2^32 ticks, built by a lemma and not computed.
* C76: until the first panic the run is simulated by one of the programs cut off at their panics, for which C43 and C59 hold; from the panic on only one context moves, and what it does is computed symbolically (`solo_log`). The way to the terminal is that of C60, in any log format and as JSON that of C60_format and C73. Fair runs exist for every device (`core_turns_fair`).
* C77: each parser function is proved equivalent to its relation of `GrammarSpec`; the scan is related to the grammar by induction on the rest of the string, with the text since the last parameter as accumulator. A second induction of the same shape gives the strings that panic (C22)
* C78: the events of C68 are turned into tasks of the logger (`tasks_of`); the bytes of the one frame are those of `encode_frame`, and `message_text` (C46) says how it prints; the texts come from the lemmas of C53 (`begins_*`, `reads_between`)
* C79: the readers of `SymbolModel` against an inductive grammar (`JsonSpec`): strings and numbers both ways (`JsonScalars`); skipped values by mutual induction on the grammar and, the other way, by induction on the fuel with a relation for the brackets that are still open (`JsonValues`); members as a relation on the fields read so far (`JsonProofs`)
* C55/C73, JSON: `JsonDocument.v` gives the meaning of documents as relations over the grammar of RFC 8259
  (`denotes`, `document`) that mention no reader, and proves that the executable reader of `SinkSpec.v` accepts exactly
  these (`C55_document`).  Booleans and fractions are outside: the host writes neither.
* C48, text: `Utf8Exact.v` gives UTF-8 as in RFC 3629 (`encodes`, `text_of`: bits in places) and proves that the check
  of the model (table 3-7 of the Unicode standard) accepts exactly these texts (`C48_text`).
* Which hint and which module, for all inputs (`DisplayHints`, `LocationAny`; C39, C54): `under outer a p h leaf lp` says, by the rules of the
  book alone, that the hint in force at a nested argument is `h`; the text shown for the whole contains the text of that argument under `h`.
  A list with a `u8` under `:a` is the one exception and is described exactly. For locations, `follows` lists the entries in reading order and
  names the namespace entered last; the module reported is that one in every order of namespaces and statements, which also describes
  exactly the wrong module of `C54_module_refuted`.
* Log formats.  `SinkFormats` carries the end-to-end theorems of C55, C60 and C63 from the default format to any list of
  segments: the output is exactly the lines that the formatter (C41) makes of the records, in order.
* The limit of the linker script (C62).  `LinkExact.extent` counts the used strings of the log macros and of `internp`, then lays
  the rest out in program order, each at the next multiple of its alignment; a program is linked exactly if its names are in
  order and the count ends before 65534.
* Exact failures (`Prop_Exact`, also C23, C42, C47): where a property is false of the code, the failing inputs are also described for all
  tables and streams: C12 (`DecoderUnsafe`: a bad string is reached through its own index or as a nested value; the
  converse is the totality theorem), C36, C53 (`MacroExact`: which messages of `assert_eq!` compile), C55 (`SinkEnds`), C56 (`HarnessExact`: which suites compile),
  C57 and C58 (`HostEnds`).
* C57, C58: runs over lists of read results; reduced to C05-C09 by independence of chunking.

## Boundary: what is not modelled, or abstract

* Stack overflow, allocation failure, arithmetic overflow where the code cannot reach it.
* rustc. The linker: first matching pattern wins, order is kept within a pattern, unused sections without
  `KEEP` are dropped, duplicate and missing symbols are errors, `PROVIDE`, `ASSERT` (`LinkModel`). Where
  linking is not the subject, symbols have distinct addresses in 16 bits. macOS sections are not modelled. Proc-macro parsing by
  `syn`: expressions and types are arbitrary parsers with stated laws (C70); elsewhere attributes, types and items arrive parsed.
* The ELF container and DWARF (`object`, `gimli`): symbols, sections and entry trees are the input.
* serde_json: grammar and printing modelled from its documentation (`SymbolModel`, `SinkModel`).
* Text of floats, `char::escape_debug`, `str` debug escapes, CBOR diagnostic notation, colours
  (`colored`), diffs (`dissimilar`), character classes: fields of the records `externals`/`external`;
  theorems hold for all of them, or under a stated condition (`external_ok`).
* The `time` crate: calendar modelled and specified by counting days.
* Memory: single accesses are atomic; sequentially consistent but for C64, where the device's stores arrive
  late and in any order a release store allows (loads are in program order, the host's stores are seen at
  once). Critical sections exclude other contexts (logger). C59, C60: the host is connected in blocking mode during the whole run (C66: hosts come and go). Semihosting, ITM and SVC instructions: "these bytes were sent".
* The RTT host, QEMU, the operating system: what their interfaces allow (any bytes, any cutting,
  any exit status).
* Not modelled at all: target specifications of rustc (which targets have compare-and-swap), tools outside of the repository that
  use the decoder, the rest of the book.

## Findings

Behaviour of the code that contradicts its documentation or an evident intention, each a theorem:

| property | finding |
|---|---|
| C12 | an interned string that the parser panics on plus a corrupt frame panics the host |
| C15 | enums with exactly 256, 65536 (2^32) variants: device sends a wider discriminant than the host reads |
| C16 | `book/src/bitfields.md:20-24` says that `{0=0..3}` of 254 is 5 and is shown as `110`; it is shown as `6` |
| C20 | `}{{}` is accepted |
| C22 | `{=1}` and an index of 2^64-1 panic the parser |
| C23 | `isize` in hexadecimal panics the host |
| C25 | ISO 8601 instants after the year 999999 panic the host |
| C32 | an inner module with a stricter level than its parent is not restricted (the book's example) |
| C34 | the tags of the wire format in `book/src/defmt-versions.md:25`: the host passes over `defmt_fmt`, and six tags that the macros write are not in the list |
| C35 | a bitflags symbol in the last 16 bytes of the address space overflows |
| C36 | any string of the table is accepted as a log message |
| C38 | the three causes of panics in display, via C23, C25 and `{=u8}` alternatives |
| C39 | fields of derived types stop outer hints; an outer `:a` wins over inner hints |
| C41 | trailing backslash panics the parser; text after a stray `%` is dropped; the bright colours of the book are rejected; `{l:03}` shows line 24 as `240` where the book says `024`; `{fff}` shows `/a/b.rs` as `//a/b.rs`; panics for some messages and widths (`C41_panics_iff`, `C41_format_panics_iff`: exactly which) |
| C42 | `#[defmt(Debug2Format)]` on a field of a native type sends what the host does not expect |
| C44 | lengths and pointers above 32 bits are cut |
| C47 | delegation to a type with alternatives decodes wrongly |
| C49 | empty slices of `Infallible`, and `format` called on derived types, panic the device |
| C50 | text made on the device is quoted again under `:?` |
| C51 | `Cell` prints a stray parenthesis |
| C53 | `assert_eq!` messages with an argument that only has explicit indices do not compile; `left_val` is captured; `unimplemented!` is `todo!` (`defmt/src/lib.rs:152`) and says "not yet implemented", where the macro of `core` that it is "just like" says "not implemented" |
| C54 | a statement after a sibling namespace is shown inside it |
| C55 | host records whose target starts like a frame's panic the sink; notes on skipped frames break JSON output |
| C56 | tests marked `#[ignore]` are run; `#[cfg]` on a hook removes the function but not the calls; an `Err` returned by a hook is dropped; `teardown` may panic after `all tests passed!` |
| C57 | closed TCP and serial connections are read for ever; `--watch-elf` never ends and does not survive a half-written file |
| C58 | QEMU killed by a signal counts as success |
| C66 | a host that attaches during a non-waiting write and reads before it ends loses later, waiting writes; the comment in `write_all` says that halting the device suffices |
| C62 | `*(.defmt.*)` also takes `.defmt.end`: flags are not behind the end marker and use 16 indices each; the assertion's message names 65534 strings, the limit is 65530 |
| C67 | `xtask test-snapshot alloc` and `net` always fail (no features are passed); `test-all` leaves out `test-ui` |
| C80 | A panic of xtask leaves the targets that it added; if `rustup target remove` fails the exit status is still success |
| C68 | the expressions of `timestamp!` are evaluated while the logger is held: logging in them never ends, `return` leaves the frame without timestamp, and a user's `S` or `fmt` is shadowed |
| C69 | recursive types can derive Format but never implement it (the where clause mentions the type itself); `#[defmt(Debug2Format, Display2Format)]` is accepted, the last wins; attributes of variants are ignored; a field `r#type` is shown as `r#type` |
| C70 | `#[defmt::panic_handler] pub fn` loses its visibility; `#[unsafe(no_mangle)]` beside `panic_handler` is not rejected |
| C71 | buffer sizes 0 and 1 are accepted, a non-Unicode size is silently ignored; the guard of defmt-itm against Cortex-M0 never fires (no build script sets the flag); defmt with `alloc` does not compile for riscv32im-unknown-none-elf (not in the list of build.rs) |
| C73 | with `--json` and `--show-skipped-frames` (or `-v`) the reader of the schema crate panics on a damaged frame |
| C74 | `book/src/istr.md:14` (43 bytes; really 47) and `primitives.md:24` (booleans in a single byte; really one each) are wrong |
| C75 | the 64-bit time of `book/src/timestamps.md:51-83` goes back by 2^32 in `timestamp!` if the timer wraps while interrupts are masked |
| C76 | a panic inside a log statement (e.g. in a `Format` implementation) loses its message with `print-defmt` and blocks all logging for good, although `firmware/panic-probe/src/lib.rs:9-15` promises the message on the transport (`C76_inside`) |
| C77 | a `{` inside a hint the parser does not know (or an internal bitflags hint) starts a second parameter that ends at the same `}`: `{=u8:a{=u16:x}` has two arguments for a newer-hint-tolerant host; strict mode accepts the unknown hint `__internal_bitflags_A` (`C77_two_parameters_refuted`, `C77_strict_unknown_refuted`) |

## Wrong programs

`seeded/LOG.jsonl` records deliberate faults in the model (one per line), the claim each breaks, the
theorems that then failed to prove, and what was tightened when none did.
