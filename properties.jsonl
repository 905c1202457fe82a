{"id": "C01", "title": "Variable-length integers round-trip", "statement": "Writing any uint64 as a varint and reading it back from the front of any byte stream yields the same number, reports no error, reports exactly the number of bytes that were written, and leaves exactly the bytes that followed it unread. The encoding is the minimal one: 1 byte below 128, one more byte per further 7 bits, never more than 10.", "quantifier": "every 64-bit unsigned value and every following byte stream", "why_tests_cant": "2^64 values; tests sample a handful and never check what is left unread.", "anchors": ["internal/io/binary/util.go: ReadUvarint", "encoding/binary.PutUvarint as used in internal/io/binary/string.go, bytes.go, uint.go"]}
{"id": "C02", "title": "Varint reader never returns a wrong number silently", "statement": "On an arbitrary byte stream, if the varint reader reports no error then the bytes it consumed are exactly the little-endian base-128 digits of the returned number, the number fits 64 bits and no bit was dropped; it looks at no more than 10 bytes and reports an error on anything longer or larger.", "quantifier": "every byte stream, valid or not", "why_tests_cant": "Malformed inputs are unbounded; tests contain no malformed varints at all.", "anchors": ["internal/io/binary/util.go: ReadUvarint"]}
{"id": "C03", "title": "Length-prefixed strings, byte arrays and arrays round-trip and are self-delimiting", "statement": "Every string, byte array, string array and unsigned-integer array written by the library's primitive writers is read back equal by the matching reader, which consumes exactly the written bytes whatever follows them.", "quantifier": "every content (including empty, and bytes that are not valid text) and every continuation", "why_tests_cant": "Contents and continuations are unbounded.", "anchors": ["internal/io/binary/string.go: StringToBytes, ReadString, StringArrayToBytes, ReadStringArray", "internal/io/binary/bytes.go: BytesArrayToBytes, ReadBytesArray", "internal/io/binary/uint.go: UvarintArrayToBytes, ReadUvarIntArray"]}
{"id": "C04", "title": "Reading does not depend on how the transport splits the data", "statement": "Reader.Read returns the same recording, count and error from an io.Reader that hands out a valid v2 file in arbitrarily sized non-empty pieces (network-like short reads, last piece possibly delivered together with io.EOF) as from one that hands it out at once. For transports that report io.EOF only after the last byte the same holds for every byte sequence that does not start with version byte 1, damaged or not: same recording, count and error, or a panic in both cases.", "quantifier": "every valid file and every schedule of short reads; every byte sequence and every pair of schedules", "why_tests_cant": "The set of read schedules is unbounded; unit tests read from one in-memory buffer.", "anchors": ["internal/io/binary/reader.go: ErrReader", "format/io/reader.go: Reader.Read", "internal/io/binary/util.go: ReadUvarint"]}
{"id": "C05", "title": "Metadata properties round-trip", "statement": "Any metadata property built with the package's constructors (string, int32, float32, bool, byte, vector2, vector3, timestamp, nested block, typed arrays, binary and bool arrays, nested to any depth) that is written with WriteProprty is returned equal by ReadProperty, which consumes exactly the written bytes.", "quantifier": "every well-formed property tree of any depth and width", "why_tests_cant": "Property trees are an infinite recursive type; tests cover one or two shapes.", "anchors": ["format/metadata/property.go: Property implementations", "format/metadata/io.go: WriteProprty, ReadProperty, readPropData"]}
{"id": "C06", "title": "Map iteration order never leaks into decoded data", "statement": "Go randomises map iteration, so the bytes of a block differ between runs, but for every order in which the block's entries (at every nesting level) are visited while writing, reading gives back the same mapping.", "quantifier": "every metadata block and every family of iteration orders, chosen independently at each place the writer iterates", "why_tests_cant": "The runtime picks the order; n! orders per map, and a test run exercises one.", "anchors": ["format/metadata/property.go: MetadataProperty.Data", "format/io/writer.go: accumulateMetdataKeys, writeMetadata", "format/encoding/event/event.go: Encode"]}
{"id": "C07", "title": "Event streams round-trip", "statement": "Encoding any list of event collections with the event encoder and decoding each resulting stream with the shared header returns the same names, times, event names and metadata blocks, for every map iteration order.", "quantifier": "every list of event collections and iteration order", "why_tests_cant": "Streams share one header (name and key tables) built incrementally, so correctness depends on the whole history of earlier streams.", "anchors": ["format/encoding/event/event.go: Encode, Decode, readHeader"]}
{"id": "C08", "title": "Enum streams round-trip", "statement": "Encoding any list of enum collections with the enum encoder and decoding each stream with the shared header returns the same member list (duplicates and order included) and the same values, including negative and out-of-range ones.", "quantifier": "every list of enum collections, every member list, every 64-bit value", "why_tests_cant": "The member table is shared and built incrementally over all streams.", "anchors": ["format/encoding/enum/enum.go: Encode, Decode"]}
{"id": "C09", "title": "Raw64 is bit-exact", "statement": "Position, euler and float collections encoded with Raw64 are decoded to exactly the same 64-bit patterns (NaN payloads, infinities, signed zeros, subnormals included).", "quantifier": "every capture list and every bit pattern", "why_tests_cant": "2^64 bit patterns per component; tests use ordinary numbers and a tolerance.", "anchors": ["format/encoding/position/raw64.go", "format/encoding/euler/raw64.go", "format/encoding/float/float.go: encode64, decodeRaw64"]}
{"id": "C10", "title": "Raw32 returns the nearest 32-bit float and is stable", "statement": "With Raw32 every decoded component is the IEEE round-to-nearest-even 32-bit float of the original (an error of at most half an ulp, infinities only on overflow), and encoding the decoded collection again returns it unchanged.", "quantifier": "every capture list and every non-NaN 64-bit value", "why_tests_cant": "Rounding corner cases (ties, subnormals, overflow) are not sampled by tests.", "anchors": ["format/encoding/position/raw32.go", "format/encoding/euler/raw32.go", "format/encoding/float/float.go: encode32, decodeRaw32"]}
{"id": "C11", "title": "Euler Raw16 accuracy", "statement": "For collections with at least two captures and every angle component already in [0,360), the decoded angle differs from the original by at most 360/2^17 degrees and is strictly inside (0,360); re-encoding a decoded collection returns the same bytes.", "quantifier": "every capture list with components in [0,360)", "why_tests_cant": "Tests check a few random angles with a loose tolerance.", "anchors": ["format/encoding/euler/raw16.go", "internal/io/binary/util.go: UnsignedFloatBSTToBytes, BytesToUnisngedFloatBST"]}
{"id": "C12", "title": "Binary-search quantisation is order preserving and accurate", "statement": "The 16-bit float encoding used for float values returns, for values inside the announced range, a value within half a cell of the original up to floating-point rounding, and never reverses the order of two values.", "quantifier": "every list of finite values up to 2^126 in magnitude (stream); every value, range and byte width (functions)", "why_tests_cant": "Accuracy must hold at every cell boundary of every range.", "anchors": ["internal/io/binary/util.go: UnsignedFloatBSTToBytes, BytesToUnisngedFloatBST", "format/encoding/float/float.go: encodeBST16, decodeBST16"]}
{"id": "C13", "title": "Octree cell packing is a bijection", "statement": "Packing 8 (16) octree cells into 3 (6) bytes and unpacking them is the identity on cells, and unpacking then packing is the identity on bytes.", "quantifier": "every sequence of cells and every byte triple / sextuple", "why_tests_cant": "2^24 (2^48) combinations.", "anchors": ["format/encoding/position/oct24.go: octCellsToBytes24, bytesToOctCells24", "format/encoding/position/oct48.go: octCellsToBytes48, bytesToOctCells48"]}
{"id": "C14", "title": "Octree decoding mirrors encoding", "statement": "OctCellsToVec3 applied to the cells produced by Vec3ToOctCells lands, on each axis, within half a leaf cell (up to floating-point rounding of the box) of the original point when the point is inside the box, and the three axes do not influence each other.", "quantifier": "every box, point and depth", "why_tests_cant": "Unbounded boxes and points; drift shows only on long streams.", "anchors": ["format/encoding/position/oct.go: Vec3ToOctCells, OctCellsToVec3"]}
{"id": "C15", "title": "Capture times: Raw64 exact, Raw32 nearest", "statement": "Capture times written with Raw64 are read back bit-exact and those written with Raw32 are read back as the nearest 32-bit float.", "quantifier": "every list of times", "why_tests_cant": "Unbounded lists and all bit patterns.", "anchors": ["format/io/time.go: encodeTime, decodeTime, encodeTime64, decodeTime64, encodeTime32, decodeTime32"]}
{"id": "C16", "title": "BST16 times stay ordered and drift at most linearly", "statement": "Times decoded from a BST16 stream whose stored step is finite and non-negative never decrease, whatever the payload bytes. For a chronological list of finite times the decoded times never decrease, and the i-th differs from the original by at most about i*D/2^17 (D the largest gap) plus float rounding; the tempting stronger claim, an error of at most one quantisation cell, is false because uniformly spaced captures saturate the quantiser.", "quantifier": "every payload; every chronological finite list of times", "why_tests_cant": "Drift depends on the whole history of captures; tests use short lists.", "anchors": ["format/io/time.go: encodeTimeBST16, decodeTimeBST16"]}
{"id": "C17", "title": "Encoded size per capture", "statement": "For each storage technique the encoded stream has exactly the advertised number of bits per capture plus a constant: 192/96/48/24 for position Raw64/Raw32/Oct48/Oct24, 96/48 for euler Raw32/Raw16, 64/32/16 for float; euler Raw64 uses 240 rather than the documented 192.", "quantifier": "every capture list", "why_tests_cant": "A claim about all lengths.", "anchors": ["format/encoding/position/position.go: StorageTechnique", "format/encoding/euler/euler.go: StorageTechnique", "format/encoding/euler/raw64.go: encodeRaw64"]}
{"id": "C18", "title": "Whole-recording lossless round-trip", "statement": "Writing any well-formed recording with lossless encoders (Raw64, event, enum) and Raw64 times, compressed or not, and reading the result with the same encoders registered returns an equal recording (ids, names, metadata, every collection and capture, binaries, references, all nested recordings in order) and no error.", "quantifier": "every well-formed recording tree, every map iteration order, both compression settings, every read schedule, arbitrary trailing bytes when uncompressed", "why_tests_cant": "Recordings are unbounded trees; correctness depends on global stream numbering and shared tables across the tree.", "anchors": ["format/io/writer.go: Writer.Write, recurseRecordingToBytes, evaluateCollections", "format/io/reader.go: Reader.Read, recursiveBuidRecordings"]}
{"id": "C19", "title": "Lossy configurations only touch numbers", "statement": "With any registered built-in encoders and any of the three time techniques, reading back a written recording succeeds and yields a recording with the same tree, ids, names, metadata, binaries, references, collection kinds/names, capture counts, event names and metadata, enum members and values; only capture times and position/euler/float components may differ, and they are exactly the per-stream encoder's decode of its encode.", "quantifier": "every well-formed recording tree and every valid encoder/time configuration", "why_tests_cant": "Cross product of all configurations and trees.", "anchors": ["format/io/writer.go: Writer.Write", "format/io/reader.go: Reader.Read", "format/encoding/*"]}
{"id": "C20", "title": "Byte counts agree and files are self-delimiting", "statement": "Reader.Read on a file produced by Writer.Write reports exactly the count Writer.Write reported; uncompressed, that count is the number of bytes emitted and consumed, so recordings written back to back can be read back to back.", "quantifier": "every well-formed recording, any following data", "why_tests_cant": "Needs exact consumption for every shape.", "anchors": ["format/io/writer.go: Writer.Write, errWriter", "format/io/reader.go: Reader.Read", "internal/io/binary/reader.go: TotalRead"]}
{"id": "C21", "title": "Metadata key table is complete and duplicate free", "statement": "The key table written to a file contains every top-level metadata key used by any recording, binary or reference in the tree exactly once and nothing else, and every stored key index points at the right key, for every map iteration order.", "quantifier": "every recording tree and iteration order", "why_tests_cant": "Index assignment is order dependent and shared across the tree.", "anchors": ["format/io/writer.go: accumulateMetdataKeys, writeMetadata"]}
{"id": "C22", "title": "Every collection is encoded exactly once by the right encoder", "statement": "If Write accepts a recording then each collection of the tree is handed to exactly one encoder, namely the first registered one that accepts it, and the encoder index and payload stored next to a collection are its own; encoders with nothing to do are not mentioned in the file.", "quantifier": "every recording tree and every list of registered encoders with distinct signatures", "why_tests_cant": "Global stream numbering over arbitrary trees.", "anchors": ["format/io/writer.go: evaluateCollections, calcNumStreams, Writer.Write"]}
{"id": "C23", "title": "Write rejects unusable recordings before emitting anything", "statement": "Write returns a non-nil error with count 0 and leaves the destination untouched exactly when the tree contains a nil sub-recording, nil binary, nil reference, nil collection or a collection no registered encoder accepts.", "quantifier": "every recording tree and encoder list", "why_tests_cant": "All positions of the defect in all trees.", "anchors": ["format/io/writer.go: checkForNilInterfaces, evaluateCollections, Writer.Write"]}
{"id": "C24", "title": "A failing destination leaves a clean prefix and is reported", "statement": "Whatever the destination writer does (accept part of a write and fail, fail then recover), a Write that returns has emitted a prefix of the byte sequence it would have emitted on a healthy destination, and it reports no error only if everything was emitted; without compression its count is the length of that prefix. With compression this also covers bytes the compressor holds back until it is closed. It may panic instead of returning only while writing an attached binary.", "quantifier": "every recording, every destination obeying the io.Writer contract, every failure point", "why_tests_cant": "Every failure point of every file.", "anchors": ["format/io/writer.go: errWriter, recurseRecordingToBytes, Writer.Write"]}
{"id": "C25", "title": "A truncated file never passes for another recording", "statement": "Reading any strict prefix of an uncompressed file produced by Write returns an error: it never returns a recording without one, never panics and never fails to return. Reading any strict prefix of a compressed file returns too, with an error or with exactly the recording and the count the whole file gives (the last bytes of a compressed stream need not be needed), never with another recording.", "quantifier": "every written recording and every cut point (crash point)", "why_tests_cant": "Every cut point of every file; the reader swallows many intermediate errors, so this rests on the sticky error.", "anchors": ["format/io/reader.go: Reader.Read, recursiveBuidRecordings", "internal/io/binary/reader.go: ErrReader"]}
{"id": "C26", "title": "Files that need unknown or newer encoders are refused", "statement": "Read returns an error, and no recording, when the version byte is neither 1 nor 2, when a listed encoder signature is not registered, or when a registered encoder is older than the file requires; when it accepts, each listed encoder is resolved to a registered encoder with that signature and a sufficient version.", "quantifier": "every file header and registered encoder list", "why_tests_cant": "All combinations of listed and registered encoders.", "anchors": ["format/io/reader.go: readEncoders, Reader.Read", "format/io/load.go: GetRecoringVersion"]}
{"id": "C27", "title": "Reading terminates on every input", "statement": "Reader.Read on an arbitrary byte sequence always ends: nested recordings go no deeper than there are bytes, and every loop is bounded by a count that was read. (It does not always end well: hostile inputs can make it panic, which is exhibited.)", "quantifier": "every byte sequence", "why_tests_cant": "Arbitrary inputs; nested recursion driven by attacker-controlled counts.", "anchors": ["format/io/reader.go: recursiveBuidRecordings", "format/metadata/io.go: readPropData"]}
{"id": "C28", "title": "Slice keeps exactly the captures in [begin,end)", "statement": "format.Slice returns a recording with the same ids, names, metadata, references and tree in which every collection, at every depth, contains exactly the original captures with begin <= time < end in the original order; binaries are kept or dropped throughout as requested; later options override earlier ones.", "quantifier": "every recording tree, every option list, every time value including NaN and infinities", "why_tests_cant": "All trees, all float times.", "anchors": ["format/slice.go: Slice, CaptureFallsWithin", "format/collection/*/collection.go: Slice"]}
{"id": "C29", "title": "Slicing composes", "statement": "Slicing twice equals slicing once by the intersection of the two intervals; slicing is idempotent; a slice of a valid recording without NaN times is valid (with a NaN between two captures it need not be); slicing at m splits every collection without losing or duplicating a capture.", "quantifier": "every recording tree, every pair of intervals", "why_tests_cant": "Algebraic laws over all inputs.", "anchors": ["format/slice.go: Slice", "format/validate.go: Validate"]}
{"id": "C30", "title": "Validate accepts exactly chronological recordings", "statement": "Validate with default options returns nil iff in every collection of the tree no capture is earlier than its predecessor (for NaN-free times: iff every collection is sorted by time); with the requirement switched off it accepts everything.", "quantifier": "every recording tree and option list", "why_tests_cant": "All trees and positions of the violation.", "anchors": ["format/validate.go: Validate"]}
{"id": "C31", "title": "Start, end and duration of a chronological recording", "statement": "For a recording that passes Validate and has no NaN time, RecordingStart and RecordingEnd are the least and greatest capture time in the whole tree (+Inf/-Inf when there are no captures) and RecordingDuration is their difference. Without the chronological requirement the claim is false.", "quantifier": "every validated recording tree", "why_tests_cant": "All trees; tests check one.", "anchors": ["format/util.go: RecordingStart, RecordingEnd, RecordingDuration"]}
{"id": "C32", "title": "Summary counts every capture once", "statement": "The capture counts printed by the summarize command add up, per kind, to the number of captures of that kind in the whole tree; collections of other kinds are counted as other.", "quantifier": "every recording tree", "why_tests_cant": "All trees.", "anchors": ["cmd/rap-cli/summarize.go: summarize, Combine"]}
{"id": "C33", "title": "CSV import neither loses nor invents captures", "statement": "RecordingFromCSV on a table with the six known columns yields one sub-recording per distinct (id,name) pair whose single Position collection contains exactly that pair's rows, in file order, for every map iteration order; an unparsable number aborts with an error.", "quantifier": "every table, every column order, every iteration order", "why_tests_cant": "All tables; grouping is order dependent.", "anchors": ["cmd/rap-cli/csv.go: RecordingFromCSV"]}
{"id": "C34", "title": "V1 import preserves every capture", "statement": "Converting a decoded v1 recording yields one sub-recording per subject with Position, Rotation, Custom Event and Life Cycle collections holding exactly the subject's captures in order with exactly widened times and components, and all metadata keys (metadata values that parse as numbers become floats, event data stays text). The life event type is kept as the index; types outside 0..3 are kept too, so that 'every index names a member' does not hold.", "quantifier": "every v1 message", "why_tests_cant": "All messages.", "anchors": ["internal/io/rapv1/util.go: protobufToStd, oldToNewEvents, convertMetadata"]}
{"id": "C35", "title": "JSON import: enum captures keep their member", "statement": "A user expects FromJSON to give every enum capture an index that selects its own member name. This holds when at most one distinct value is used; it is false as soon as two captures carry different values, because the member table is never filled.", "quantifier": "every enum collection in a JSON document", "why_tests_cant": "Depends on the whole list of captures.", "anchors": ["format/parsing/json.go: parseEnumCollection"]}
{"id": "C36", "title": "JSON import: metadata is converted or lost as a whole", "statement": "FromJSON turns each JSON metadata value into the corresponding property; if any value in the block cannot be converted (for instance a string containing a quote, or an integer of seven or more digits) the block silently becomes empty. For blocks whose values are all convertible every key is present.", "quantifier": "every JSON metadata object", "why_tests_cant": "All JSON values of any depth.", "anchors": ["format/parsing/json.go: parseMetadata", "format/metadata/utils.go: getProperties", "format/metadata/property.go: MetadataProperty.UnmarshalJSON"]}
{"id": "C37", "title": "JSON export is syntactically valid for plain names", "statement": "The to-json command emits a syntactically valid JSON document that shows every id, name, metadata value, collection, count and event (times to six decimals) of the tree, whenever ids, names and signatures contain no character JSON requires to be escaped, event times are finite, no collection is nil and the metadata holds no NaN or infinity; otherwise it can emit invalid JSON, and then it does not always report an error.", "quantifier": "every recording tree", "why_tests_cant": "All trees; bracket and comma placement depends on emptiness at each level.", "anchors": ["cmd/rap-cli/json.go: toJson"]}
{"id": "C38", "title": "V1 framing", "statement": "Reading a v1 file accepts exactly a count of 1 followed by an 8-byte size and that many bytes delivered by single reads, reports the bytes consumed, and rejects other counts and truncated files; unlike v2 it is sensitive to short reads. A negative or absurd size makes it panic.", "quantifier": "every file and read schedule", "why_tests_cant": "All cut points and schedules.", "anchors": ["internal/io/rapv1/util.go: ReadRecording, getNumberOfRecordings", "format/io/reader.go: Reader.Read"]}
{"id": "C39", "title": "Read can succeed on damaged streams", "statement": "A user may assume that a nil error from Read means that every collection was decoded. This is false: decoding errors of a stream are dropped and the collection is nil. What does hold: for files produced by Write with valid settings no collection of the result is nil.", "quantifier": "every file", "why_tests_cant": "Error swallowing shows only on damaged inputs.", "anchors": ["format/io/reader.go: recursiveBuidRecordings"]}
{"id": "C40", "title": "Option lists behave like last-writer-wins settings", "statement": "For Slice and Validate, only the last option of each kind matters, options of different kinds commute, and the same options apply at every depth.", "quantifier": "every option list", "why_tests_cant": "All option lists.", "anchors": ["format/slice.go", "format/validate.go"]}
{"id": "C41", "title": "Octree-coded positions drift at most linearly", "statement": "A position stream written with Oct48 or Oct24 and read back keeps every capture: on each axis capture j is off by at most the float32 rounding of the first capture plus j times half a leaf cell of the box of steps (2^17 or 2^9 cells wide) plus float32 rounding of the step range.", "quantifier": "every list of finite positions, every axis, every index", "why_tests_cant": "The error depends on the whole history of captures; tests use short lists and loose tolerances.", "anchors": ["format/encoding/position/oct24.go: encodeOct24, decodeOct24", "format/encoding/position/oct48.go: encodeOct48, decodeOct48", "format/encoding/position/oct.go: Vec3ToOctCells, OctCellsToVec3"]}
{"id": "C42", "title": "from-csv writes what the table says", "statement": "The file the from-csv command writes for a well-formed table, read back by Load, is exactly the imported recording: every row with its time and coordinates bit for bit, one sub-recording per (id,name).", "quantifier": "every table, every map iteration order, every read schedule of the file", "why_tests_cant": "All tables and all read schedules.", "anchors": ["cmd/rap-cli/main.go: from-csv action", "cmd/rap-cli/csv.go: RecordingFromCSV", "format/io/writer.go: Writer.Write", "format/io/load.go: Load"]}
{"id": "C43", "title": "upgrade keeps the recording", "statement": "The upgrade command turns a well-formed version 1 file into a version 2 file that Load reads back as the same tree of recordings, collections, names, metadata and capture counts; only numbers change, by the error of the Oct24, Raw16 and BST16 encodings.", "quantifier": "every version 1 message, every iteration order of its maps, every transport of the new file", "why_tests_cant": "All messages and schedules.", "anchors": ["cmd/rap-cli/main.go: upgrade", "internal/io/rapv1/util.go: ReadRecording, protobufToStd", "format/io/writer.go: Write"]}
{"id": "C44", "title": "JSON import builds exactly what the document describes", "statement": "From any bytes, FromJSON returns exactly the recording that the JSON text describes (ids, names, collections with every capture and time in order, sub-recordings at every depth, references, metadata; the last of equal keys counts, invalid UTF-8 is replaced), reports an error when the bytes are no JSON text or describe no recording, and panics only when the metadata of some object of the document contain an empty array, an array starting with null, or a vector-shaped object with a non-numeric coordinate. When all metadata is plain, what from-json writes reloads as that recording, up to the numbers its encodings store.", "quantifier": "every byte string, every JSON document of any depth", "why_tests_cant": "All documents of any size and nesting; the error and panic sides are universally quantified.", "anchors": ["format/parsing/json.go: FromJSON", "format/metadata/utils.go: getProperties", "cmd/rap-cli/main.go: from-json"]}
{"id": "C45", "title": "Metadata survives as JSON", "statement": "A metadata block written with json.Marshal and read with json.Unmarshal comes back equal, for every block of faithful values: UTF-8 text without quotes, backslashes and control characters that looks neither like hexadecimal nor like a time, integers of at most six digits, floats with a fraction, finite vectors, non-empty arrays, blocks that are no vectors, at any depth up to 10000. Everything else is refuted: larger integers and quotes make reading fail, empty arrays make it panic, and whole floats, one-byte arrays, time-like or hexadecimal text and blocks with the keys x and y come back as something else.", "quantifier": "every faithful metadata block of any size and depth, every map iteration order on both sides", "why_tests_cant": "All blocks, all depths, all orders.", "anchors": ["format/metadata/property.go: MarshalJSON, UnmarshalJSON", "format/metadata/utils.go: getProperties"]}
{"id": "C46", "title": "JSON import does not depend on map order", "statement": "Importing the same JSON text twice gives the same recording up to the order of metadata entries, although Go visits the members of decoded objects in a random order; and it either succeeds both times or reports an error both times, provided its metadata have none of the values on which the import panics. (Refuted for those: with an empty array next to an unconvertible value, one order panics and the other returns a recording without its metadata.)", "quantifier": "every JSON text, every two iteration orders of all its objects", "why_tests_cant": "The iteration order is random; a test sees one order per run.", "anchors": ["format/parsing/json.go: FromJSON, parseMetadata", "format/metadata/utils.go: getProperties"]}
{"id": "C47", "title": "Typed JSON reading of properties", "statement": "json.Unmarshal into a property of a given type (text, int32, float32, bool, byte, vectors, block, time, array, raw array) returns exactly the value the text stands for, and an error for every text that stands for none: an integer is a JSON number without fraction and exponent in the int32 range, a byte the first of a hexadecimal text, a coordinate the last member of that name, null the zero value. A property written with json.Marshal is read again by its own type: any UTF-8 text, any int32, any finite float, any byte and vector, faithful blocks and arrays. Refuted: null and empty text panic for bytes, null and the empty array for arrays, and arrays without elements or of one byte do not come back.", "quantifier": "every byte string, every property type, every property of that type", "why_tests_cant": "All texts, numbers and nestings; a panic needs one particular text.", "anchors": ["format/metadata/property.go: UnmarshalJSON, MarshalJSON", "format/metadata/utils.go: getProperties"]}
{"id": "C48", "title": "Start, end and event count of version 1 messages", "statement": "For a version 1 message, the start, end and duration helpers return the least and the greatest capture time (custom events, positions, rotations and life-cycle events of the recording and of all subjects, in any order, NaN times ignored; +Inf and -Inf if there are none) and their difference; the event count is the number of event captures of the imported recording. If the imported recording is chronological, RecordingStart and RecordingEnd of it agree with them; without chronological order they need not.", "quantifier": "every version 1 message, any capture order", "why_tests_cant": "Any number of subjects and captures in any order, including NaN times; agreement of two independent implementations.", "anchors": ["internal/io/rapv1/util.go: GetStartOfRecording, GetEndOfRecording, GetRecordingDuration, CountRecordingCustomEvenets", "format/util.go: RecordingStart, RecordingEnd"]}
{"id": "C49", "title": "from-csv reads exactly the texts that are tables", "statement": "The table import accepts a text exactly if it is a table of comma-separated values: records on lines of their own (LF or CRLF, empty lines ignored, last ending optional), fields plain or in quotes with quotes doubled, all records of the same width; each text has at most one meaning as a table, every table without carriage returns has a text, and what from-csv writes is what that table says. Any other text, and any failure of the source, never yields a recording.", "quantifier": "every input text, every way the source ends, every map order", "why_tests_cant": "All texts over all bytes, with quotes, commas and line endings in any combination.", "anchors": ["cmd/rap-cli/csv.go: RecordingFromCSV", "cmd/rap-cli/main.go: from-csv"]}
{"id": "C50", "title": "What to-json writes, from-json reads only without collections", "statement": "Given the document that to-json wrote for a recording (exportable, UTF-8 names), from-json returns a recording only if the tree has no collections and no nil sub-recordings; such a tree comes back at every level with its ids, names and sub-recordings in order and its metadata (if faithful to JSON and not nested too deeply), without binaries and references; for every other tree from-json reports an error rather than a different recording.", "quantifier": "every recording tree of any depth, every metadata", "why_tests_cant": "All trees and all metadata values through two commands and a text format.", "anchors": ["cmd/rap-cli/json.go: toJson", "format/parsing/json.go: FromJSON, parseRecordingFromJSON, parseCollection", "format/metadata: MarshalJSON, UnmarshalJSON"]}
{"id": "C51", "title": "Texts shown to a user", "statement": "Property.String() describes the property: integers and bytes in decimal, floats rounded to the nearest millionth with the sign kept, blocks with one line per entry in increasing byte order of the keys, arrays with their element count. The text of a block is the same on every call, whatever order Go visits the map in. String() panics exactly if a nil property is shown (elements of arrays are not looked at). Capture.String() shows the time and the value rounded to hundredths. The summarize command shows the file size off by at most half a hundredth of the unit. The texts of byte and bool arrays violate this: the count they state is always larger than the number of elements, because the length prefix is counted too.", "quantifier": "every property (nested to any depth), every map iteration order, every capture of the five built-in kinds, every file size up to 2^53 bytes", "why_tests_cant": "rounding must be right for every float, and map order differs from run to run, so a test sees one order and a few numbers", "anchors": ["format/metadata/property.go: String methods", "format/collection/position/capture.go: String", "format/collection/euler/capture.go: String", "format/collection/enum/capture.go: String", "format/collection/event/capture.go: String", "format/collection/float/capture.go: String", "cmd/rap-cli/summarize.go: printSize, printSummary"]}
{"id": "C52", "title": "Saving a recording again and again", "statement": "A recording that was saved and loaded any number of times, each time with other settings, map orders and compression, still differs from the original in numbers only: names, ids, structure, metadata, events, enum members, binaries and references are those of the original, and what was loaded can always be saved and loaded again without error. If every save stored numbers in 32 or 64 bits, no number was rounded more than once, and saving again with the same settings changes nothing. With the 16 bit techniques the last part is violated: the range of the values shrinks, so a second save with the same settings changes the values again.", "quantifier": "every well formed recording, every history of saves (any length, any settings per save, any map order at each save), every file up to 2^40 bytes", "why_tests_cant": "errors could add up over a history of any length and any mix of settings; a test sees one file saved once or twice", "anchors": ["format/io/writer.go: Writer.Write", "format/io/reader.go: Reader.Read", "format/io/time.go", "format/encoding/float/float.go", "format/encoding/position/position.go", "format/encoding/euler/euler.go"]}
{"id": "C53", "title": "What opens can be saved", "statement": "Take any bytes, written by this library or not, of either file version, delivered over any transport. If Read returns a recording without an error, nothing in it is missing except possibly collections, and every metadata block is a map of complete properties. Saving it with the library encoders never panics: either Write fails before anything is written (a collection is missing, or has no encoder), or it succeeds, and reading the new file gives the same recording up to numbers. With the same encoders for reading and writing (and, for old files, encoders for the four old kinds), the only thing that stops Write is a missing collection: every collection that Read returns is one that some registered encoder accepts.", "quantifier": "every byte sequence (damaged, foreign or hostile), every transport schedule, every registered set of library encoders, every valid writer settings and map order", "why_tests_cant": "the inputs are all byte sequences, not only those a writer produces; a test can only try some", "anchors": ["format/io/reader.go: Read, recursiveBuidRecordings", "format/io/writer.go: Write", "format/metadata/io.go: ReadProperty", "format/encoding/event/event.go: Decode", "format/encoding/enum/enum.go: Decode", "internal/io/rapv1/util.go: ReadRecording"]}
{"id": "C54", "title": "BSON export says what the metadata says", "statement": "If MarshalBSON of a metadata block gives data, the data is one well-formed BSON document that can be read in one way only, and it says exactly what the block says: the same keys at every level, strings and bools unchanged, integers and bytes as int32, float32 as the same double, vectors as documents of doubles, arrays in order, byte arrays as binary data, times as the whole milliseconds before them. It fails only if a key contains a zero byte (then always) or the document reaches the two-gigabyte limit of the format. Known limits, stated as refuted parts: a time outside the years 1678 to 2262 comes out as another time, and a byte is not told from an integer.", "quantifier": "every metadata block of any size and depth that the constructors build, every order in which Go visits its maps", "why_tests_cant": "the claim is about all nestings, keys, numbers and map orders, and about every way a BSON reader could read the bytes", "anchors": ["format/metadata/property.go: MarshalBSON, MarshalBSONValue of every property type", "format/metadata/metadata.go: Mapping"]}
{"id": "C55", "title": "The tools work on what opens", "statement": "Take any bytes, written by this library or not, of either file version, delivered over any transport, that Read accepts. If no collection is missing in the recording, then slicing, validating, start, end and duration, summarizing, the JSON export and the benchmark's printing all finish without panicking. If one is missing, slicing and summarizing always panic. The benchmark command, on any file that Load opens with nothing missing, re-saves and re-reads it without failing and prints the same summary (names, signatures, counts) before and after; it panics if Load fails or a top-level collection is missing.", "quantifier": "every byte sequence (damaged, foreign or hostile), every transport schedule, every registered set of library encoders, all options of the tools, every map order", "why_tests_cant": "the inputs are all byte sequences that Read accepts, not only those a writer produces; a test can only try some", "anchors": ["format/slice.go", "format/util.go: RecordingStart, RecordingEnd, RecordingDuration", "format/validate.go", "cmd/rap-cli/summarize.go: summarize, printSummary", "cmd/rap-cli/json.go: toJson", "cmd/rap-benchmark/main.go: printRecording, run command"]}
{"id": "C56", "title": "Version 1 messages are read as the protobuf format says", "statement": "The bytes that a version 1 payload may inflate to are read as a message exactly if they are a protobuf encoding of one: fields in any order, a scalar given several times counts with its last value, lists collect in order, map entries replace each other by key, unknown fields and known numbers with another wire type change nothing, texts must be UTF-8, and anything truncated or malformed is an error. Bytes have at most one meaning, every message with UTF-8 texts has an encoding, and a version 1 file opens as the recording of the message its payload encodes, or not at all.", "quantifier": "every byte sequence, every message, every encoding of it, any unknown fields anywhere, every nesting of groups", "why_tests_cant": "a message has unboundedly many encodings and any byte sequence may be in a file; tests only see what one writer produced", "anchors": ["internal/io/rapv1/util.go: ReadRecording (proto.Unmarshal)", "internal/io/rapv1/recording.pb.go: Recording, SubjectRecording, CustomEventCapture, LifeCycleEventCapture, VectorCapture"]}
{"id": "C57", "title": "What the commands change", "statement": "For any files, any command and any permissions of the file system: the command line tool changes no file, except that from-json writes the one it is told to, and only after its whole input has been read and describes a recording. A command whose input is missing or refused, and from-json when it can not remove the file to replace, fail with nothing changed. A command that fails has printed nothing, except an export that met something it can not export. Write itself, to a destination that takes everything, fails only if it has written nothing. upgrade, on any file Load opens with nothing missing (either version), prints a file that loads as the same recording up to stored numbers, and prints nothing and fails if a collection is missing. summarize and to-json print the summary and the export of what was loaded. from-json on a document with plain metadata writes or prints a file that loads as the described recording up to stored numbers, also when input and output are the same file. from-csv prints a file that loads as exactly what the table says. What does not hold: that from-json keeps the file it replaces when it fails.", "quantifier": "every content of every file and of standard input, every command and choice of files, every outcome of opening, removing and creating, every order of Go maps, every codec and number notation", "why_tests_cant": "A test runs a command on a few files in a writable directory; it does not cover all inputs, nor failures of the file system between removing the old file and writing the new one.", "anchors": ["cmd/rap-cli/main.go: main (summarize, to-json, from-json, upgrade, from-csv)", "format/parsing/json.go: FromJSON", "cmd/rap-cli/csv.go: RecordingFromCSV", "format/io/load.go: Load", "format/io/writer.go: Writer.Write"]}
{"id": "C58", "title": "No metadata is left out silently", "statement": "Take any file, compressed or not, whose recording announces an identifier, a name and a list of metadata keys, whatever bytes follow and over whatever transport they come. If Read accepts the file, the recording has that identifier and name and metadata for exactly those keys: a property that is cut off, malformed or of an unknown type is reported, never skipped.", "quantifier": "every layout of encoders, headers and key table, every identifier, name and list of keys, every continuation of the file and every transport", "why_tests_cant": "The bytes behind the list of keys are arbitrary; tests only try files that were written by the library.", "anchors": ["format/io/reader.go: readRecordingMetadataBlock, recursiveBuidRecordings, Reader.Read"]}
{"id": "C59", "title": "The files are in one fixed format, byte for byte", "statement": "The version 2 file format can be written down by itself, as a relation between bytes and recordings (SpecFormat.v): version byte, encoder names and versions, compression byte, encoder headers, table of metadata keys, then each recording with its identifier, name, metadata, collections, references, files and sub-recordings; counts as shortest base-128 numbers, integers and floats as little-endian bytes, the type numbers of properties, the names of the five encoders and the layout of each. Every file in that format is read by Read as exactly the recording the format gives it, with its length reported and the stream left right behind it, over any transport. In a compressed file everything behind the compression byte is compressed, and is otherwise the same. Numbers stand in full, in 32 bits, or densely: then the format gives the range and the rule by which the bits of each number (of each distance, for times and positions) walk to it. Every recording that Write stores with the library's encoders, whatever the techniques, is a file in that format, for a recording that differs only in rounded numbers (in nothing, if all numbers are kept in full). No file stands for two recordings.", "quantifier": "all files in the format, all transports and registered library encoders; all recordings, map iteration orders and writer settings (every technique for times, positions, angles and numbers), compressed or not (any codec that gives back what was compressed); files up to 2^40 bytes", "why_tests_cant": "Round-trip tests pass for any pair of writer and reader that agree with each other, including a pair that changed the format; golden files fix the bytes of single recordings only.", "anchors": ["format/io/writer.go: Writer.Write", "format/io/reader.go: Reader.Read", "internal/io/binary: reader.go, writer.go", "format/metadata: Block, Property", "format/encoding/event, enum, position, euler, float: Encode, Decode", "docs/formats/v2/README.md"]}
{"id": "C60", "title": "How close the numbers in a saved file are", "statement": "Write a recording, of any depth, with any techniques and with or without compression, and read the file back: every collection comes back under its name with captures whose numbers are as close as the technique promises. Numbers in full are unchanged; 32-bit numbers are the nearest 32-bit floats. Times in 16-bit steps do not decrease if the stored ones do not, and the j-th is off by at most 2^(e-25) + j*(D/2^17 + D/2^24 + 2^(e-44)), where 2^e bounds the times and D the steps. Octree positions are off by at most 2^(e-25) + j*((H-L)/2^17 + G/2^24 + 2^(e-44)) along each axis (2^9 instead of 2^17 for 24 bits), where the steps lie in [L,H]. Angles in [0,360) stored in 16 bits are off by at most 360/2^17, other numbers by (hi-lo)/2^17 + 2^(e-22). Event names and metadata, enum members and values are unchanged.", "quantifier": "all recordings, settings, techniques, map iteration orders, transports and codecs; files up to 2^40 bytes", "why_tests_cant": "The bounds must hold for every sequence of numbers and every position of a collection in a tree of recordings; tests compare a few values with a tolerance.", "anchors": ["format/io/writer.go: Writer.Write", "format/io/reader.go: Reader.Read", "format/io/time.go", "format/encoding/position/oct24.go, oct48.go", "format/encoding/euler/raw16.go", "format/encoding/float/float.go"]}
{"id": "C61", "title": "The example program leaves the wave it computed", "statement": "Run the example program: whatever math.Sin returns and however long it takes, writing succeeds, and whoever opens the file with the library finds a recording 'Sin Wave Demo' with a collection 'Sin Wave', one recording 'Sin Wave' inside it with a collection 'Position', and the metadata 'iterations' = 1000 and 'benchmark' = the measured duration. Both collections hold 1000 captures whose times do not decrease; the j-th is at j/100 seconds to within a tenth of a millisecond, at x = z = 0 and at the 32-bit float nearest to the sine computed for it.", "quantifier": "all functions in place of math.Sin (including ones returning NaN and infinities), all texts of the duration, codecs, map iteration orders and transports", "why_tests_cant": "The program is not tested; the bound on 1000 accumulated 16-bit steps is a statement about all the roundings in them.", "anchors": ["cmd/example/main.go: main", "format/io/writer.go: Writer.Write", "format/io/time.go"]}
{"id": "C62", "title": "What is said about a damaged payload", "statement": "ReadProperty on a strict beginning of what WriteProperty returned reports an error, on any transport. Cut the payload an event, enum or float encoder returned for one of its collections, or the header of an event or enum encoder, anywhere: decoding it for the times of the collection reports an error. The decoders of positions and rotations report exactly the payloads that are shorter than a stated number of bytes, whatever the bytes are, and return a collection for all others; so some cuts that change the numbers go unnoticed (exhibited: Raw32 and the 16-bit rotations). Whatever the bytes, a decoder of the library that reports no error returns a collection of its kind with the name and the times it was given (an empty one if a float payload names an unknown technique), and the decoders of numbers never panic.", "quantifier": "all properties, collections and places of the cut; for the decoders of numbers, all byte sequences, times and techniques", "why_tests_cant": "There is one case per byte of every possible payload; what a decoder does on arbitrary bytes is not covered by round-trip tests at all.", "anchors": ["format/metadata/io.go: ReadProperty", "format/encoding/event/event.go: Decode", "format/encoding/enum/enum.go: Decode", "format/encoding/float/float.go: Decode", "format/encoding/position/position.go: Decode", "format/encoding/euler/euler.go: Decode"]}
{"id": "C63", "title": "Numbers in texts become the nearest float", "statement": "A decimal number in a table, in a JSON document or in the metadata of a version 1 file, with any number of digits, is stored as the float64 (version 1 metadata: float32) nearest to it, ties to even, with its sign even if it is zero; hexadecimal numbers likewise. A table whose cells are such numbers in range becomes, through from-csv and Load, the recording with exactly these floats; a cell that is no number or is out of range stops the import with an error. A version 1 metadata text out of the range of float32 stays a text. Besides numbers only inf, infinity and nan, in any case, are accepted (so a table can put a NaN into a recording); underscores between digits do not change the value, and underscores anywhere else (except behind the 0x of a hexadecimal number) are refused.", "quantifier": "all texts (numbers with any number of digits, exponents below 100000 in absolute value), all tables, all orders of map iteration", "why_tests_cant": "The rounding has to be right for every text; ties and values next to them need arbitrarily many digits to be told apart.", "anchors": ["cmd/rap-cli/csv.go: RecordingFromCSV", "format/parsing/json.go: FromJSON", "internal/io/rapv1/util.go: convertMetadata, oldToNewEvents"]}
{"id": "C64", "title": "Where an uncompressed file ends", "statement": "Take any bytes, written by this library or not, over any transport. If Read accepts them as an uncompressed recording file, the count it returns is exactly the number of bytes it took from the transport; the recording depends on these bytes only, whatever follows them (other bytes, another file or nothing); and no strict beginning of these bytes is accepted, so a sequence of files can be taken apart in one way only. If Read reports an error, its count is at most the number of bytes it took.", "quantifier": "every byte sequence, every transport that reports the end only after the last bytes, everything that may follow", "why_tests_cant": "The bytes are arbitrary (damaged or foreign files that Read accepts), not only those a writer produces, and so is what follows them.", "anchors": ["format/io/reader.go: Reader.Read, recursiveBuidRecordings, readEncoders", "internal/io/binary/reader.go: ErrReader.Read, TotalRead", "internal/io/binary/uint.go: ReadUvarint", "internal/io/binary/string.go: ReadString, ReadStringArray"]}
{"id": "C65", "title": "Timestamps are written and read as the same instant", "statement": "A timestamp property that fits into 64-bit nanoseconds is written in JSON as the date, time and zone offset of exactly that instant on the calendar, in whatever local time zone the program runs, and reading the text gives the same timestamp back, by itself and within exported metadata. In imported metadata a text becomes a timestamp exactly when it denotes one. The reader accepts exactly the texts that denote a date that exists, a time of day and an offset (also one-digit hours, a comma, further digits). Not so for timestamps outside that range, which are silently written as another time, and for zones whose offset is not a whole number of minutes, which lose the odd seconds.", "quantifier": "every timestamp, every time zone and every text", "why_tests_cant": "There are 2^64 timestamps, any time zone and arbitrary texts; calendars fail at leap years, ends of centuries and before 1970.", "anchors": ["format/metadata/property.go: TimeProperty.MarshalJSON, TimeProperty.UnmarshalJSON", "format/metadata/utils.go: time.Parse in the parsing of strings"]}
{"id": "C66", "title": "Seventeen digits bring a number back exactly", "statement": "A float64 written as text with at least 17 significant digits, in any decimal or hexadecimal notation the reader accepts, is read back as exactly that float64, and a float32 written with at least 9 digits as exactly that float32; a zero keeps its sign; an integer of at most 53 bits is read as exactly this integer. So a CSV table of captures written that way goes through the from-csv command and Load without any loss. Sixteen digits are not enough, nor are integers beyond 2^53 safe.", "quantifier": "every finite float, every text of a number close enough to it, every table of such texts", "why_tests_cant": "There are 2^64 floats and infinitely many texts for each; a reader that rounds twice fails only on texts next to the middle between two floats.", "anchors": ["cmd/rap-cli/csv.go: RecordingFromCSV", "internal/io/rapv1/util.go: convertMetadata, oldToNewEvents"]}
