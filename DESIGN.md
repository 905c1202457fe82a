# Formal model of recolude/rap in Rocq

## Layout

* `properties.jsonl` — the properties, in terms of the public API.
* `rocq/theories/` — the model (one file per Go package or file), the proofs
  and the `Prop*.v` files that hold nothing but property theorems, their
  examples and `Print Assumptions`.
* `MANIFEST.json` — property → theorem table.
* `seeded/LOG.jsonl` — mutation log (wrong programs tried against the theorems).

## How the code is modelled

* bytes are `Coq.Init.Byte.byte`; Go strings and byte slices are `list byte`;
  `uint64`/`int` counts are `N` with the bounds written out where they matter.
* `float64`/`float32` are Flocq's `binary64`/`binary32` (bit-exact, including NaN
  payloads, infinities and signed zeros); `+ - * /`, comparisons and
  conversions are Flocq's IEEE operations with round-to-nearest-even, which is
  what Go does on amd64 (no fused multiply-add).
* a Go function that may panic returns `res` (`Ok`, `Panic`, `Stuck` = out of
  fuel); Go errors are ordinary values in the returned tuple.  A Go nil
  interface is an explicit `None`/`PNil` case.  `make` of more than 2^48 bytes
  panics, as in the Go runtime.
* `io.Reader` is an arbitrary state machine (`Reader S`): the theorems about
  reading hold for every reader that delivers the data in pieces of any size,
  and the nested `ErrReader`s of the reader are modelled literally, as
  a reader transformer.  `io.Writer` likewise.
* a Go map is an association list without duplicate keys; *every* place where
  the writer iterates over a map works on its own, independently permuted copy
  of the recording, so a theorem about all permutations is a theorem about all
  iteration orders.
* `compress/flate` is an abstract codec: theorems that need it take the
  round-trip law of that codec as an explicit hypothesis, and an instance
  is exhibited.

## Properties: what is modelled and how it will be proved

* C01, C02 varints: `PutUvarint`/`ReadUvarint` as recursive functions on `N`; induction on the digits; soundness on arbitrary input by case analysis of at most ten steps, generalised over the step number.
* C03 primitives: induction on the array, composed from C01 through a "parses exactly" predicate quantified over readers and continuations.
* C04 schedules: every parser lemma is proved for an arbitrary lawful reader; ErrReader turns any lawful reader into a strict one.
* C05, C06 metadata: nested induction over property trees; equivalence of trees up to permutation of blocks.
* C07, C08 event/enum: invariant "table is duplicate free and only grows" over the sequence of streams.
* C09, C10, C15 raw codecs: Flocq bit-conversion lemmas plus little-endian lemmas; `Bconv`-style rounding correctness for float32.
* C11, C12, C14, C16 quantisers: invariants on the bisection loop over reals through Flocq's `Bplus_correct` etc., exactness of the arithmetic on [0,360]; monotonicity of rounding for ordering claims.
* C13 octree packing: bitwise lemma lifted from a finite sweep.
* C17 sizes: induction on captures.
* C18, C19, C20, C22, C39: writer and reader modelled completely; generic theorem for every list of lawful encoders, then instantiated with the built-in ones.
* C21: invariant over accumulateMetdataKeys.
* C23, C26: direct case analysis, with an independently stated predicate for the defect.
* C24: every write goes through errWriter, or through the compressor with its sticky error; prefix invariant over the sink's log.
* C25: relational argument: a reader run that never saw an error behaves the same on any extension of its input; together with C18 this excludes acceptance of a strict prefix. That no panic happens either is a second relational argument (QuietFacts): up to the cut both runs agree, after it every read fails, and from then on the tree builder only handles empty slices; its one unguarded step, handing an empty stream to an encoder's decoder with the header the file really has, is shown harmless for the library's encoders (CalmFacts). For compressed files the same arguments run over the inflater, which from a part of a stream may fail at any point but hands out only bytes that were written.
* C27: fuel = remaining bytes + constant is never exhausted.
* C28, C29, C30, C31, C40: induction over recording trees, float comparisons through Flocq.
* C32 summary: tree induction; the printed text with decimal numbers.
* C33 CSV: fold invariant over rows; iteration orders are arbitrary permutations.
* C41 drift of octree streams: error recurrence along the walk, like C16.
* C42 from-csv end to end: C33 composed with C18.
* C34, C38 v1: message type modelled after the protobuf definition (any decoder; C56 adds the one that is used).
* C43 upgrade end to end: C38, C34 and C19 composed.
* C35, C36 JSON import: `Json.v` models the import on parsed JSON values; `SpecJson.v` says which property a value stands for.
* C44 JSON import as a whole: `describes` relates a document to its recording; composed with C19 for the from-json command.  `JsonText.v` models the text reader; `decodes` (SpecJsonText.v) is the value of a text: invalid UTF-8 repaired, the grammar of RFC 8259, the last of equal keys.
* C45 metadata as JSON: the text is UTF-8 and has one meaning (C37, C44); from its content each faithful value is the only one `says` allows; equality of maps is transitive.  Each excluded kind of value has a refutation.  Assumed of number notation: `number_text` (SpecJsonText.v), with an instance; for the reader modelled in ParseFloat.v its clause about integers is C66_integers, and its clause about float64 follows from C66_exact64 for writers of 17 digits.
* C46 import does not depend on map order: two runs on one text see values equal up to the order of members; `describes` respects that equality.  Refuted for panics.
* C47 typed JSON reading: `reads_as` says which value of a type a JSON content stands for, independently of the decoder; the model of the UnmarshalJSON methods is sound and complete for it, panics only at a `pitfall`, and reads what MarshalJSON wrote.
* C48 version 1 helpers: the five loops fold a minimum (maximum) over the times; the invariant is 'least of what was seen and +Inf'. The imported recording has the same times, so C31 gives the agreement.
* C49 CSV texts: a grammar of tables (fields, records, lines) on one side, the character-level reader on the other; soundness by an invariant on what lies ahead in each place of the reader, completeness by running it along the grammar. Composed with C42 for the command.
* C50 to-json then from-json: the exported content (C37) has members of known names, so the reader's result follows by induction on the tree; collections are rejected for want of a "type"; metadata by C45. The text is UTF-8, so repairing it changes nothing.
* C51 texts shown: `String()` of properties and captures, and the numbers of summarize. Rounding by the distance of `div_even` to the quotient; sorted lists of distinct keys are unique, so the order of the map does not matter; by induction on the property. The count of byte and bool arrays is refuted.
* C52 saving again and again: an inductive relation `saved r h a` over histories of settings. One step is the round trip of C01; the relations compose (equivalence, "only numbers differ"), so induction on the history gives the first part. Rounding to 32 bits is idempotent, so "unchanged or rounded once" is transitive. BST16 is refuted by a computed pair of values.
* C53 what opens can be saved: a postcondition for every parser (`post` in `AcceptFacts.v`), by induction on fuel and loops: properties read without error are `built` and have the code asked for, decoded collections are well formed, binaries and references have their sizes. `built` therefore allows any bytes in a bool array. Then the rejection theorem of C23 and the round trip of C01 cover both outcomes of Write.
* C54 BSON export: the methods and the driver's writer (`Bson.v`) against the grammar of bsonspec.org (`SpecBson.v`, an inductive relation between bytes and values) and a relation `shown` between properties and BSON values. Induction on the property gives the document or the reason for its refusal; a mutual induction on the grammar shows that bytes have one reading.
* C55 the tools on what opens: the shape that C53 gives (`wf_but_colls`) with nothing missing is `no_nil`, which is what each tool needs; conversely slicing or summarizing successfully proves `no_nil`. The benchmark (`Benchmark.v`) combines it with `C53_same_encoders`.
* C56 protobuf: `Proto.v` models `proto.Unmarshal` for the version 1 messages; `SpecProto.v` says which bytes encode which message, as a relation on the fields of the wire format. Decoding is proved sound and complete against it (one generic fold lemma per message type), then combined with C38, C53 and C55 for files.
* C57 the command line tool: `Cli.v` runs each command on a world (files, standard input, standard output) and a system (what may be opened, removed, created). Frame: by cases on the command. Failing writes: everything an encoder returns to Write is examined before the first byte leaves, so an error from a destination that takes everything comes before it (`CliFacts.v`). The results of the commands follow from C53, C55, C44 and C49.
* C58 whole metadata: the parts of the layout are read one after the other as in C18; then by induction on the announced keys: the loop ends without an error only behind the last one, and what it has collected are the keys so far. For compressed files the same is said about what the compressed part expands to (`codec_ok`, as in C01).
* C59 the file format: `SpecFormat.v` relates bytes and recordings without any function of the model (docs/formats/v2/README.md stops after `varint` and `string`, so the rest is the format the code implements).  Reading: by induction over the relation, part by part, every accepted spelling is parsed as what it stands for.  Writing: the write script of C18 is shown to satisfy the relation part by part; the recording in the file is the decoded one of C19.  Uniqueness follows from reading, since Read is a function.  A compressed file is the same opening followed by a compression of the same contents, for any compressor with an inflater that undoes it (`codec_ok`).  Dense numbers (techniques 2 and 3) are given by the walk of their bits through the range stored in front of them, in float arithmetic; `DenseFacts.v` shows that the decoders compute these walks and that the encoders' payloads have this layout.
* C60 accuracy of files: the decoded collections of C19 are given by functions on lists of numbers; the lemmas behind C11, C12, C16 and C41 bound those functions, and the relation on recordings is monotone in the relation on collections.
* C61 the example program: its recording is built by `SinDemo.v` from an arbitrary sine and an arbitrary text for the measured duration. The times i/100 are within 2^-50 of the quotients (rounding of one division), so C60 with e = 4 and D = 1/90 gives the bound.
* C62 damaged payloads: a relation between a run on the beginning of some bytes and a run on all of them (`CutFacts.v`): as long as the second reports no error, the first either returns the same value and has as much left to miss, or reports an error, and never panics. It holds of every reading function of `internal/io/binary` and `format/metadata`, hence of the event decoder and of ReadProperty. The enum and float decoders only look at the sticky error of their ErrReader; for them the relation of C25 is used. The decoders of positions and rotations are measured directly: `SpecDamage.v` says how many bytes they insist on, and C62_numbers_refuted shows cuts that go unnoticed.
* C63 numbers in texts: the model reads the digits as an integer, scales it to a fraction and rounds the quotient with its remainder; the remainder locates the value between two neighbours (`located`), so Flocq's `binary_round_aux_correct'` applies. The range is stated as a bound on the written number (`limit`), which is shown to be where rounding overflows. The grammar of the specification (`SpecDecimal.v`) is relational; the reader accepts exactly it, the words, and texts with underscores that mean the same without them. Exponents of 100000 and more are outside the statement: the library stops reading their digits.
* C64 where a file ends: the counter of the ErrReader is tied to the bytes consumed (`tally`), every count read before it likewise (`exact`). Two runs on inputs that differ only behind the consumed bytes are related with the simulation of `LinkFacts.v`; the first run is `beyond` once it has consumed more than the file, which the final state rules out because the state of a transport determines what it still delivers.
* C65 timestamps: the calendar of SpecStamp.v counts years and months one by one; a closed form of the number of a day is proved from it by induction and compared with the library's division chains. Writing: digits by arithmetic, the fraction by induction on its trailing zeros. Reading: each step of the parser is an equivalence with a piece of the text.
* C66 enough digits: a number within a relative distance below half of 2^-prec of a float rounds to that float (the neighbours of the float are at least an ulp away, half of one below a power of two); half a unit in the 17th (9th) significant digit is below that distance; C63 says that the reader rounds to nearest. The table is C49 with these cells.
* C37 JSON export: text-level model of toJson, of the MarshalJSON methods and of
  %f (ToJson.v), and the JSON grammar of RFC 8259 with the content of each text
  (SpecToJson.v).  Proved: exportable trees give one valid document that shows the
  recording, event times within half a millionth.  Refuted: a quote in a name, a
  time that is no number, and an error inside a sub-recording, which is dropped.
  Assumed of encoding/json (json_writer): strings become JSON strings, finite
  numbers become JSON numbers, printable ASCII is kept.  `C37_go` uses the
  model of Go's string writer instead (Quote.v), and assumes numbers only.

## Trusted base

### Rocq

Coq 8.16.1's kernel (which includes `vm_compute`, used to evaluate examples
and some finite sweeps), and the statements themselves.  Libraries used: the
standard library and Flocq 4.1.0 (definitions and lemmas about IEEE floats;
Flocq declares no axioms).  No axioms, admitted proofs, functors, module types,
plugins or kernel switches of our own.

`Print Assumptions` stands after every property theorem in the `Prop*.v`
files.  It lists these standard-library axioms (all come in through the real
numbers that Flocq's correctness lemmas talk about):

<!-- assumptions -->
* no axioms ("Closed under the global context") — 48 theorems: C01_varint_roundtrip, C01_varint_format, C01_eager_end_refuted, C02_varint_sound, C02_varint_total, C03_string_roundtrip, C03_bytes_roundtrip, C03_string_array_roundtrip, C03_uint_array_roundtrip, C06_same_mapping, C08_enum_roundtrip, C13_pack24_bijection, C13_pack48_bijection, C22_handed_once, C28_slice, C28_slice_needs_no_nil, C28_no_options_not_identity_refuted, C29_slice_idempotent, C29_slice_valid_nan_refuted, C30_validate, C31_unsorted_refuted, C32_counts, C32_decimal, C32_needs_no_nil, C33_import, C33_bad_number, C33_or, C33_needs_columns, C33_trim, C33_nothing_lost, C37_quote_refuted, C40_slice_last_wins, C40_slice_commute, C40_validate_last_wins, C44_one_meaning, C47_panic_refuted, C47_own_refuted, C49_reads, C49_one_meaning, C49_writable, C49_rejects, C54_size, C55_printed, C65_written, C65_reads, C65_round_trip, C65_range_refuted, C65_odd_offset_refuted.
* `ClassicalDedekindReals.sig_forall_dec`, `FunctionalExtensionality.functional_extensionality_dep` — 24 theorems: C35_one_value, C35_two_values_refuted, C36_all_or_nothing, C36_plain_kept, C36_lost_refuted, C37_valid, C37_go, C37_bad_time_refuted, C37_lost_error_refuted, C44_from_json, C44_text, C45_round_trip, C45_error_refuted, C45_panic_refuted, C45_confused_refuted, C46_order, C46_luck_refuted, C47_reads, C47_round_trip, C50_only_bare, C50_pipe, C51_captures, C65_property, C65_import.
* `ClassicalDedekindReals.sig_forall_dec`, `ClassicalDedekindReals.sig_not_dec`, `Classical_Prop.classic`, `FunctionalExtensionality.functional_extensionality_dep` — 148 theorems: C04_read_schedule, C04_any_bytes, C05_property_roundtrip, C06_property_any_order, C07_event_roundtrip, C09_raw64_exact, C09_float_is_its_bits, C10_raw32_nearest, C10_raw32_stable, near32_nearest, C11_euler16, C11_wraps_refuted, C12_float16, C12_bst_any_width, C12_bst_order, C14_oct_accuracy, C14_oct_axes_independent, C14_exact_half_cell_refuted, C15_times_roundtrip, C16_any_payload_never_decreases, C16_drift, C16_one_cell_refuted, C17_sizes, C17_euler_raw64_192_refuted, C18_lossless_roundtrip, C19_only_numbers, C20_counts, C20_back_to_back, C21_key_table, C21_compressed, C22_first_accepting, C22_listed, C23_rejects_untouched, C23_otherwise_emits, C24_failing_destination, C24_compressed, C25_truncated, C25_error, C25_compressed, C26_unknown_version, C26_encoders_resolved, C26_error_no_recording, C27_read_ends, C27_no_panic_refuted, C27_read_ends_v1, C28_interval, C29_slice_twice, C29_slice_valid, C29_slice_split, C30_sorted, C31_start_end, C32_printed, C34_import, C34_members_refuted, C38_accepts, C38_consumed, C38_in_memory, C38_truncated, C38_other_counts, C38_short_reads, C38_bad_size_panics, C39_written_files_decode, C39_nil_error_refuted, C41_oct_drift, C42_from_csv_file, C43_upgrade, C44_end_to_end, C48_start_end, C48_agrees, C48_events, C48_unordered_refuted, C49_from_csv, C51_property, C51_same, C51_panic, C51_raw_refuted, C51_size, C51_duration, C52_only_numbers, C52_goes_on, C52_rounded_once, C52_stable, C52_bst16_refuted, C53_shape, C53_kinds, C53_saved_again, C53_same_encoders, C54_faithful, C54_refused, C54_zero_key, C54_time_refuted, C54_kind_refuted, C55_tools, C55_missing_panics, C55_benchmark, C55_benchmark_panics, C56_reads, C56_one_meaning, C56_written, C56_unknown, C56_file, C56_opened, C57_write, C57_touches, C57_refuses, C57_silent, C57_upgrade, C57_summarize, C57_to_json, C57_from_json, C57_from_csv, C57_replaced_refuted, C58_whole_metadata, C58_compressed, C59_reads, C59_writes, C59_one_meaning, C59_reads_compressed, C59_writes_compressed, C59_one_meaning_compressed, C60_accuracy, C61_example_program, C62_property, C62_payload, C62_numbers, C62_numbers_refuted, C62_shape, C62_returns, C63_nearest, C63_closest, C63_limit, C63_words, C63_nothing_else, C63_underscores, C63_table, C63_table_rejects, C63_v1, C63_json, C64_delimited, C64_no_beginning, C64_never_more, C66_exact64, C66_exact32, C66_zero, C66_table, C66_sixteen_refuted, C66_integers, C66_integers_refuted.
<!-- end assumptions -->

### What is modelled

| Go code | model |
| --- | --- |
| `internal/io/binary/*` (varints, arrays, strings, ErrReader, errWriter) | `BinaryIO.v`, `IO.v` |
| `format/metadata/*.go` (binary codec of properties and blocks) | `Metadata.v` |
| `format/metadata` MarshalJSON / UnmarshalJSON | `ToJson.v` / `Unmarshal.v`, `Json.v` |
| `format/metadata` MarshalBSON, MarshalBSONValue | `Bson.v` |
| `cmd/rap-benchmark/main.go` (what the run command prints; not the timing) | `Benchmark.v` |
| `cmd/rap-cli/main.go` (the five commands; not the reading of flags) | `Cli.v` |
| `cmd/example/main.go` (any function for `math.Sin`, any text for the duration) | `SinDemo.v` |
| `proto.Unmarshal` on the messages of `internal/io/rapv1/recording.pb.go` (library code, from what is known of its source) | `Proto.v` |
| of the standard library: `encoding/json` reader and string writer, `encoding/csv` reader | `JsonText.v`, `Quote.v`, `CsvText.v` |
| `format/*.go`, `format/collection/*` (recordings, captures, slice, validate, util) | `Recording.v`, `Tools.v`, `Text.v` |
| `time.Format` and `time.Parse` for RFC3339Nano, as used by TimeProperty (library code) | `Stamp.v` |
| the `String()` methods of properties and captures | `Strings.v` |
| `format/encoding/*` (times and stream codecs) | `TimeIO.v`, `Encoding.v`, `EncEvent.v`, `EncEnum.v`, `EncPosition.v`, `EncEuler.v`, `EncFloat.v`, `EncLawful.v` |
| `format/io` writer and reader, Load | `Writer.v`, `Reader.v` |
| `internal/io/rapv1` (framing, import of the messages, time helpers) | `RapV1.v` |
| `cmd/rap-cli` summarize, from-csv, from-json, to-json, upgrade; `format/parsing` | `Summarize.v`, `Csv.v`, `Json.v`, `ToJson.v`, `Tools.v`, `RapV1.v` |

Each definition cites its file and lines, and says where it simplifies.

### What is not modelled, and what is assumed instead

* `compress/flate`: an abstract compressor and inflater.  Theorems that use it
  assume `codec_ok` (inflating what was deflated gives it back),
  `inflation_ends` (inflating finite data comes to an end),
  `inflation_uniform` (what comes out does not depend on how the input
  arrives) or `inflation_cut` (from a part of a stream come only bytes that
  were written, in order).  `Toy.v` has an instance of all four.
* protobuf decoding of version 1 messages: C34, C38, C43, C53 and C55 hold for
  any function from bytes to the message type.  C56 is about `Proto.v`, a model
  of the library's decoder from what is known of its source.
* `strconv.ParseFloat`: the theorems about tables, JSON documents and version 1 files hold for any function in its place. `ParseFloat.v` models its grammar (signs, points, exponents with their cap, hexadecimal numbers, words, underscores) from what is known of the standard library's source; its three rounding algorithms are represented by the correctly rounded quotient they are documented to compute. C63 uses this instance.
* `time.Format` and `time.Parse`: any functions in C36, C44, C45, C47; `Stamp.v` models both for the one layout that is used, from what is known of the source of the standard library (Go 1.20), and C65 is about this model. The local time zone is any function from instants to offsets.
* `encoding/csv`: modelled from the source of the standard library
  (`CsvText.v`), with its default settings.
* `encoding/json`: the reader of texts and the writer of strings are modelled
  from the documentation and source of the standard library (`JsonText.v`,
  `Quote.v`); the decimal notation of numbers is a parameter in both
  directions.  json.Marshal refuses values nested deeper than 10000 levels
  when it compacts the output of a MarshalJSON method: not modelled.
* `fmt`: `%f`, `%.2f`, `%d` and `%v` of integers are modelled from the
  documentation of the standard library (exact decimal expansion, rounded to
  the nearest).  In C32 `%.2f` is any function; C51 uses the model.
* memory: a `make` above 2^48 bytes panics, smaller ones succeed; round-trip
  theorems are stated for files of at most 2^40 bytes.
* `int` and `uint64` counts are unbounded `N` where a file of that size could
  not exist; wrap-around is modelled where a small file can cause it.
* concurrency: the code starts no goroutines; two concurrent calls share no
  state in the model.
* `go.mongodb.org/mongo-driver/bson`: its encoding of the Go types that occur
  is modelled from its source (`Bson.v`), with the limit of 2^31 - 1 bytes and
  the refusal of keys with zero bytes.
* not modelled at all: command-line flag handling, what the file system does beyond
  files that exist or not and may be opened, removed or created,
  and the generated mocks.
