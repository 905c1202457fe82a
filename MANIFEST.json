{
 "claims": [
  {
   "property": "C01",
   "status": "proved",
   "theorems": [
    "C01_varint_roundtrip",
    "C01_varint_format",
    "C01_eager_end_refuted"
   ],
   "note": "C01_eager_end_refuted shows the side condition is needed: a transport reporting io.EOF together with the last byte makes the bare varint reader fail."
  },
  {
   "property": "C02",
   "status": "proved",
   "theorems": [
    "C02_varint_sound",
    "C02_varint_total"
   ],
   "note": ""
  },
  {
   "property": "C03",
   "status": "proved",
   "theorems": [
    "C03_string_roundtrip",
    "C03_bytes_roundtrip",
    "C03_string_array_roundtrip",
    "C03_uint_array_roundtrip"
   ],
   "note": "Lengths below the Go allocation limit (2^48 bytes)."
  },
  {
   "property": "C04",
   "status": "proved",
   "theorems": [
    "C04_read_schedule",
    "C04_any_bytes"
   ],
   "note": "Valid files: any schedule, EOF with or after the last piece. Arbitrary bytes (not version 1): any two schedules with EOF after the last piece; the inflater is assumed to end and not to depend on the schedule."
  },
  {
   "property": "C05",
   "status": "proved",
   "theorems": [
    "C05_property_roundtrip"
   ],
   "note": "Encodings up to 2^44 bytes."
  },
  {
   "property": "C06",
   "status": "proved",
   "theorems": [
    "C06_property_any_order",
    "C06_same_mapping"
   ],
   "note": "Property level; the whole-file version is part of C18."
  },
  {
   "property": "C07",
   "status": "proved",
   "theorems": [
    "C07_event_roundtrip"
   ],
   "note": "Any number of event collections, any metadata iteration order, header and streams up to 2^44 bytes."
  },
  {
   "property": "C08",
   "status": "proved",
   "theorems": [
    "C08_enum_roundtrip"
   ],
   "note": "Members and int64 values."
  },
  {
   "property": "C09",
   "status": "proved",
   "theorems": [
    "C09_raw64_exact",
    "C09_float_is_its_bits"
   ],
   "note": "Equality of Flocq values is equality of bit patterns (C09_float_is_its_bits)."
  },
  {
   "property": "C10",
   "status": "proved",
   "theorems": [
    "C10_raw32_nearest",
    "C10_raw32_stable",
    "near32_nearest"
   ],
   "note": "All three encoders; nearest32 is stated against Flocq's rounding and as 'no 32-bit float is nearer'."
  },
  {
   "property": "C11",
   "status": "proved",
   "theorems": [
    "C11_euler16",
    "C11_wraps_refuted"
   ],
   "note": "Stream level, through the Euler encoder with technique Raw16 and at least two captures. C11_wraps_refuted shows why [0,360) is needed: 360 comes back near 0."
  },
  {
   "property": "C12",
   "status": "proved",
   "theorems": [
    "C12_float16",
    "C12_bst_any_width",
    "C12_bst_order"
   ],
   "note": "Stream level through the float encoder with BST16 (order exact, error half a cell plus bpow(e-22) of float32 rounding for values up to 2^e, -125<=e<=126); function level for every byte width and range, where order is proved as long as the cells are wider than the rounding of the walk."
  },
  {
   "property": "C13",
   "status": "proved",
   "theorems": [
    "C13_pack24_bijection",
    "C13_pack48_bijection"
   ],
   "note": "Both packings, both directions."
  },
  {
   "property": "C14",
   "status": "proved",
   "theorems": [
    "C14_oct_accuracy",
    "C14_oct_axes_independent",
    "C14_exact_half_cell_refuted"
   ],
   "note": "Half a leaf cell plus about 2(k+1) units in the last place of the box, for every depth k; the statement without the rounding term is refuted."
  },
  {
   "property": "C15",
   "status": "proved",
   "theorems": [
    "C15_times_roundtrip",
    "near32_nearest"
   ],
   "note": "Through an ErrReader around any transport that delivers the data; near32 is the nearest float by near32_nearest."
  },
  {
   "property": "C16",
   "status": "proved",
   "theorems": [
    "C16_any_payload_never_decreases",
    "C16_drift",
    "C16_one_cell_refuted"
   ],
   "note": "Read through any transport. Exponents -100..126, at most 2^40 times, count*gap within the same magnitude."
  },
  {
   "property": "C17",
   "status": "proved",
   "theorems": [
    "C17_sizes",
    "C17_euler_raw64_192_refuted"
   ],
   "note": "Exact sizes; the documented 192 bits of euler Raw64 are refuted."
  },
  {
   "property": "C18",
   "status": "proved",
   "theorems": [
    "C18_lossless_roundtrip"
   ],
   "note": "Sizes: file at most 2^40 bytes; compress/flate enters as the hypothesis codec_ok (only when compression is on)."
  },
  {
   "property": "C19",
   "status": "proved",
   "theorems": [
    "C19_only_numbers"
   ],
   "note": "Sizes: file at most 2^40 bytes; compress/flate enters as the hypothesis codec_ok (only when compression is on)."
  },
  {
   "property": "C20",
   "status": "proved",
   "theorems": [
    "C20_counts",
    "C20_back_to_back"
   ],
   "note": "Sizes: file at most 2^40 bytes; compress/flate enters as the hypothesis codec_ok (only when compression is on)."
  },
  {
   "property": "C21",
   "status": "proved",
   "theorems": [
    "C21_key_table",
    "C21_compressed"
   ],
   "note": "C21_key_table on the uncompressed layout, C21_compressed on the compressed one (packed_layout in SpecPacked.v)."
  },
  {
   "property": "C22",
   "status": "proved",
   "theorems": [
    "C22_first_accepting",
    "C22_handed_once",
    "C22_listed"
   ],
   "note": "First two theorems for arbitrary lawful encoders, the third for the built-in ones. Sizes: file at most 2^40 bytes; compress/flate enters as the hypothesis codec_ok (only when compression is on)."
  },
  {
   "property": "C23",
   "status": "proved",
   "theorems": [
    "C23_rejects_untouched",
    "C23_otherwise_emits"
   ],
   "note": "Any destination, any map iteration order."
  },
  {
   "property": "C24",
   "status": "proved",
   "theorems": [
    "C24_failing_destination",
    "C24_compressed"
   ],
   "note": "C24_failing_destination: uncompressed. C24_compressed: with any compressor; the count is then that of the uncompressed form and only claimed when everything went well. The panic on an attached binary is exhibited in C24_example and C24_example_compressed."
  },
  {
   "property": "C25",
   "status": "proved",
   "theorems": [
    "C25_truncated",
    "C25_error",
    "C25_compressed"
   ],
   "note": "All strict prefixes, any schedule. C25_truncated excludes a nil error for uncompressed files; C25_error adds that Read returns (no panic, no endless loop). C25_compressed covers both kinds: an error, or exactly what the whole file gives; compress/flate is assumed to hand out, from a part of a stream, only bytes that were written (inflation_cut), and Toy.v has an instance. Registered encoders are only required to come to an end, which the library's do, and so is the decompressor."
  },
  {
   "property": "C26",
   "status": "proved",
   "theorems": [
    "C26_unknown_version",
    "C26_encoders_resolved",
    "C26_error_no_recording"
   ],
   "note": ""
  },
  {
   "property": "C27",
   "status": "proved",
   "theorems": [
    "C27_read_ends",
    "C27_no_panic_refuted",
    "C27_read_ends_v1"
   ],
   "note": "Termination for all bytes with the library's encoders, assuming that the inflater ends; the panic is exhibited."
  },
  {
   "property": "C28",
   "status": "proved",
   "theorems": [
    "C28_slice",
    "C28_slice_needs_no_nil",
    "C28_interval",
    "C28_no_options_not_identity_refuted"
   ],
   "note": "C28_no_options_not_identity_refuted: captures at +Inf and NaN are dropped even without options."
  },
  {
   "property": "C29",
   "status": "proved",
   "theorems": [
    "C29_slice_twice",
    "C29_slice_idempotent",
    "C29_slice_valid",
    "C29_slice_valid_nan_refuted",
    "C29_slice_split"
   ],
   "note": ""
  },
  {
   "property": "C30",
   "status": "proved",
   "theorems": [
    "C30_validate",
    "C30_sorted"
   ],
   "note": ""
  },
  {
   "property": "C31",
   "status": "proved",
   "theorems": [
    "C31_start_end",
    "C31_unsorted_refuted"
   ],
   "note": "C31_unsorted_refuted shows the chronological requirement is needed."
  },
  {
   "property": "C32",
   "status": "proved",
   "theorems": [
    "C32_counts",
    "C32_printed",
    "C32_decimal",
    "C32_needs_no_nil"
   ],
   "note": "summarize and the printed text; %.2f formatting is a parameter."
  },
  {
   "property": "C33",
   "status": "proved",
   "theorems": [
    "C33_import",
    "C33_bad_number",
    "C33_or",
    "C33_needs_columns",
    "C33_trim",
    "C33_nothing_lost"
   ],
   "note": "For every map iteration order and every ParseFloat; the rows are what encoding/csv delivers."
  },
  {
   "property": "C34",
   "status": "proved",
   "theorems": [
    "C34_import",
    "C34_members_refuted"
   ],
   "note": "Conversion keeps every capture, name and key; an out-of-range life type is kept although it names no member (C34_members_refuted). strconv.ParseFloat and protobuf decoding are parameters."
  },
  {
   "property": "C35",
   "status": "proved",
   "theorems": [
    "C35_one_value",
    "C35_two_values_refuted"
   ],
   "note": "Holds when all captures carry one value; refuted for every collection with two different values. Spec: enum_capture_of, selects (SpecJson.v)."
  },
  {
   "property": "C36",
   "status": "proved",
   "theorems": [
    "C36_all_or_nothing",
    "C36_plain_kept",
    "C36_lost_refuted"
   ],
   "note": "Relation says (SpecJson.v) fixes the property each value stands for; the block is converted key by key or empty; plain blocks are kept; a quote or a seven-digit integer loses the block. time.Parse and the float32 reparse are parameters."
  },
  {
   "property": "C37",
   "status": "proved",
   "theorems": [
    "C37_valid",
    "C37_go",
    "C37_quote_refuted",
    "C37_bad_time_refuted",
    "C37_lost_error_refuted"
   ],
   "note": "Validity and content for every exportable tree; the three ways to get invalid JSON are proved as refutations. C37_go uses the model of encoding/json string writing and assumes only that numbers are written as JSON numbers."
  },
  {
   "property": "C38",
   "status": "proved",
   "theorems": [
    "C38_accepts",
    "C38_consumed",
    "C38_in_memory",
    "C38_truncated",
    "C38_other_counts",
    "C38_short_reads",
    "C38_bad_size_panics"
   ],
   "note": "Exact characterisation for every reader; consumed counts, truncation and other counts for every delivering transport; short reads are rejected; bad sizes panic."
  },
  {
   "property": "C39",
   "status": "proved",
   "theorems": [
    "C39_written_files_decode",
    "C39_nil_error_refuted"
   ],
   "note": "The optimistic reading is refuted by a concrete damaged file; for files from Write nothing in the result is nil."
  },
  {
   "property": "C40",
   "status": "proved",
   "theorems": [
    "C40_slice_last_wins",
    "C40_slice_commute",
    "C40_validate_last_wins"
   ],
   "note": ""
  },
  {
   "property": "C41",
   "status": "proved",
   "theorems": [
    "C41_oct_drift"
   ],
   "note": "Per axis; Oct48 has 16 levels and Oct24 has 8."
  },
  {
   "property": "C42",
   "status": "proved",
   "theorems": [
    "C42_from_csv_file"
   ],
   "note": "Files up to 2^40 bytes; compress/flate through the round-trip law codec_ok."
  },
  {
   "property": "C43",
   "status": "proved",
   "theorems": [
    "C43_upgrade"
   ],
   "note": "upgrade end to end: v1 file -> Load -> Write -> Load."
  },
  {
   "property": "C44",
   "status": "proved",
   "theorems": [
    "C44_from_json",
    "C44_end_to_end",
    "C44_text",
    "C44_one_meaning"
   ],
   "note": "describes (SpecJson.v) and decodes (SpecJsonText.v) are the specification; the decimal notation of numbers is a parameter."
  },
  {
   "property": "C45",
   "status": "proved",
   "theorems": [
    "C45_round_trip",
    "C45_error_refuted",
    "C45_panic_refuted",
    "C45_confused_refuted"
   ],
   "note": "For all faithful blocks; each excluded kind of value is refuted. Decimal notation of numbers is a parameter with the laws number_text (instance toy_numbers)."
  },
  {
   "property": "C46",
   "status": "proved",
   "theorems": [
    "C46_order",
    "C46_luck_refuted"
   ],
   "note": "Full for documents without the panicking values; for those the outcome is refuted to be independent of the order."
  },
  {
   "property": "C47",
   "status": "proved",
   "theorems": [
    "C47_reads",
    "C47_round_trip",
    "C47_panic_refuted",
    "C47_own_refuted"
   ],
   "note": "Strconv and time parsing are parameters; C47_round_trip assumes number_text and that float32 numbers read back. The panics and the arrays that do not come back are the refuted part."
  },
  {
   "property": "C48",
   "status": "proved",
   "theorems": [
    "C48_start_end",
    "C48_agrees",
    "C48_events",
    "C48_unordered_refuted"
   ],
   "note": "All messages. C48_agrees compares with format.RecordingStart/End on the imported recording; C48_unordered_refuted shows that chronological order is needed there."
  },
  {
   "property": "C49",
   "status": "proved",
   "theorems": [
    "C49_reads",
    "C49_one_meaning",
    "C49_writable",
    "C49_from_csv",
    "C49_rejects"
   ],
   "note": "encoding/csv is modelled from the source of the standard library (CsvText.v); C49_reads is an equivalence with a grammar of its own (SpecCsvText.v). strconv.ParseFloat remains a parameter. Line endings inside quoted fields are normalised too (C49_example)."
  },
  {
   "property": "C50",
   "status": "proved",
   "theorems": [
    "C50_only_bare",
    "C50_pipe"
   ],
   "note": "Composition of the two commands: for faithful metadata the outcome is determined completely (C50_pipe); for any exportable recording only bare trees come back (C50_only_bare). So to-json output is not generally readable by from-json: collections are written with \"signature\" but read with \"type\". number_text (SpecJsonText.v) is assumed of the strconv notation, with an instance."
  },
  {
   "property": "C51",
   "status": "proved",
   "theorems": [
    "C51_property",
    "C51_same",
    "C51_panic",
    "C51_raw_refuted",
    "C51_captures",
    "C51_size",
    "C51_duration"
   ],
   "note": "C51_raw_refuted: for every byte or bool array the text states a wrong element count; fmt's %f and %.2f are modelled exactly (round to nearest even of the exact decimal expansion)"
  },
  {
   "property": "C52",
   "status": "proved",
   "theorems": [
    "C52_only_numbers",
    "C52_goes_on",
    "C52_rounded_once",
    "C52_stable",
    "C52_bst16_refuted"
   ],
   "note": "BST16 values drift: C52_bst16_refuted"
  },
  {
   "property": "C53",
   "status": "proved",
   "theorems": [
    "C53_shape",
    "C53_kinds",
    "C53_saved_again",
    "C53_same_encoders"
   ],
   "note": ""
  },
  {
   "property": "C54",
   "status": "proved",
   "theorems": [
    "C54_faithful",
    "C54_refused",
    "C54_zero_key",
    "C54_size",
    "C54_time_refuted",
    "C54_kind_refuted"
   ],
   "note": "The BSON driver is modelled from its source for the Go types used; the grammar in SpecBson.v is bsonspec.org's. C54_time_refuted and C54_kind_refuted show what the export loses."
  },
  {
   "property": "C55",
   "status": "proved",
   "theorems": [
    "C55_tools",
    "C55_missing_panics",
    "C55_benchmark",
    "C55_benchmark_panics",
    "C55_printed"
   ],
   "note": ""
  },
  {
   "property": "C56",
   "status": "proved",
   "theorems": [
    "C56_reads",
    "C56_one_meaning",
    "C56_written",
    "C56_unknown",
    "C56_file",
    "C56_opened"
   ],
   "note": "For proto.Unmarshal as modelled in Proto.v (library code). Messages are compared up to the order of maps. C56_file and C56_opened use that decoder for whole files."
  },
  {
   "property": "C57",
   "status": "proved",
   "theorems": [
    "C57_write",
    "C57_touches",
    "C57_refuses",
    "C57_silent",
    "C57_upgrade",
    "C57_summarize",
    "C57_to_json",
    "C57_from_json",
    "C57_from_csv",
    "C57_replaced_refuted"
   ],
   "note": "The commands over an abstract file system (output always accepted, input in full reads). Reading the command line is the cli library's and not modelled. C57_replaced_refuted: from-json removes the file it replaces before it can fail, so it is lost when the new one can not be created or Write panics (e.g. JSON null in metadata)."
  },
  {
   "property": "C58",
   "status": "proved",
   "theorems": [
    "C58_whole_metadata",
    "C58_compressed"
   ],
   "note": "The recording at the top of the file; files below 2^40 bytes. C58_compressed: compressed files, given that inflating undoes deflating (codec_ok)."
  },
  {
   "property": "C59",
   "status": "proved",
   "theorems": [
    "C59_reads",
    "C59_writes",
    "C59_one_meaning",
    "C59_reads_compressed",
    "C59_writes_compressed",
    "C59_one_meaning_compressed"
   ],
   "note": "version 2 files, compressed or not, every technique; SpecFormat.v is the format by itself"
  },
  {
   "property": "C60",
   "status": "proved",
   "theorems": [
    "C60_accuracy"
   ],
   "note": "end-to-end composition of the whole-file round trip with the accuracy of each technique (C11, C12, C16, C41)"
  },
  {
   "property": "C61",
   "status": "proved",
   "theorems": [
    "C61_example_program"
   ],
   "note": "math.Sin is an arbitrary function and the measured duration an arbitrary text. The program ignores the errors of os.Create and Write; the theorem is about a destination that takes everything."
  },
  {
   "property": "C62",
   "status": "proved",
   "theorems": [
    "C62_property",
    "C62_payload",
    "C62_numbers",
    "C62_numbers_refuted",
    "C62_shape",
    "C62_returns"
   ],
   "note": "A run on the beginning of the bytes is related to the run on all of them; the decoders of numbers are measured directly. C62_numbers_refuted: cuts of position and rotation payloads that change the numbers and are not reported."
  },
  {
   "property": "C63",
   "status": "proved",
   "theorems": [
    "C63_nearest",
    "C63_closest",
    "C63_limit",
    "C63_words",
    "C63_nothing_else",
    "C63_underscores",
    "C63_table",
    "C63_table_rejects",
    "C63_v1",
    "C63_json"
   ],
   "note": "Complete for exponents below 100000 in absolute value, where the library reads every digit. strconv is modelled from what is known of its source: the grammar in full, the rounding algorithms by the value they are documented to compute."
  },
  {
   "property": "C64",
   "status": "proved",
   "theorems": [
    "C64_delimited",
    "C64_no_beginning",
    "C64_never_more"
   ],
   "note": "Uncompressed version 2 files. Transports that report the end together with the last bytes are excluded: what Read returns then depends on whether bytes follow (C04)."
  },
  {
   "property": "C65",
   "status": "proved",
   "theorems": [
    "C65_written",
    "C65_reads",
    "C65_round_trip",
    "C65_property",
    "C65_import",
    "C65_range_refuted",
    "C65_odd_offset_refuted"
   ],
   "note": "time.Format and time.Parse are modelled from what is known of the library's source (Stamp.v); the calendar of the specification (SpecStamp.v) counts years and months one by one. C65_import: which texts of an imported document become times. C65_range_refuted and C65_odd_offset_refuted: timestamps before 1677 or after 2262, and offsets with odd seconds, come back as another time."
  },
  {
   "property": "C66",
   "status": "proved",
   "theorems": [
    "C66_exact64",
    "C66_exact32",
    "C66_zero",
    "C66_table",
    "C66_sixteen_refuted",
    "C66_integers",
    "C66_integers_refuted"
   ],
   "note": "All finite floats and all texts of numbers close enough; exponents below 100000. Sixteen digits, and integers beyond 2^53, refuted."
  }
 ]
}
