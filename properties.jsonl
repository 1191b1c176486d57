{"id": "C01", "title": "Bin round trip", "statement": "Decoding, with UnmarshalBin into a fresh variable of the same type, the bytes returned by MarshalBin(v) succeeds, yields v again (up to the documented normalisation: skipped and unexported fields become zero, nil slices become empty ones, ...) and consumes exactly those bytes.", "quantifier": "for every Go type of the modelled universe (nested structs, pointers, slices, arrays, maps, tags, user codecs) and every value of it meeting the representability conditions", "why_tests_cant": "The set of types and values is infinite; tests only try a few dozen struct shapes.", "anchors": ["/repo/encoder_bin.go: encodeBin, encodeStructBin", "/repo/decoder_bin.go: decodeBin, decodeStructBin", "/repo/interface.go: MarshalBin, UnmarshalBin"]}
{"id": "C02", "title": "Compact-u16 round trip", "statement": "Same as C01 for MarshalCompactU16 / UnmarshalCompactU16.", "quantifier": "for every modelled type and every representable value", "why_tests_cant": "Infinite types and values; the existing tests contain hardly any compact-u16 struct.", "anchors": ["/repo/encoder_compact-u16.go: encodeCompactU16", "/repo/decoder_compact-u16.go: decodeCompactU16"]}
{"id": "C03", "title": "Borsh round trip", "statement": "Same as C01 for MarshalBorsh / UnmarshalBorsh, including complex enums, sorted maps and nil pointers (encoded as the zero value of the pointee).", "quantifier": "for every modelled type and every representable value", "why_tests_cant": "Infinite types and values; interactions of tags, enums, maps and pointers cannot be enumerated.", "anchors": ["/repo/encoder_borsh.go: encodeBorsh", "/repo/decoder_borsh.go: decodeBorsh"]}
{"id": "C04", "title": "Streams compose", "statement": "Writing any sequence of representable values of any types with one Encoder and reading them back in order with one Decoder returns all the values and ends at the end of the data.", "quantifier": "for every finite sequence of (type, value) pairs, every encoding", "why_tests_cant": "Requires that every encoding is self-delimiting in every context; sequences are unbounded.", "anchors": ["/repo/encoder.go: Encode", "/repo/decoder.go: Decode"]}
{"id": "C05", "title": "Wire format", "statement": "The bytes produced by Encode are exactly the documented wire format of the encoding (little/big endian integers, uvarint / compact-u16 / u32 length prefixes, option flags, sorted Borsh maps, enum ordinals), whatever was written before and however the writer chunks them.", "quantifier": "for every modelled type, representable value, encoder state and non-failing writer", "why_tests_cant": "A format statement quantifies over all values; tests compare a few golden byte strings.", "anchors": ["/repo/encoder_bin.go", "/repo/encoder_borsh.go", "/repo/encoder_compact-u16.go", "/repo/encoder.go"]}
{"id": "C06", "title": "Trailing bytes do not matter", "statement": "If Decode succeeds on some data, it succeeds with the same value and final position on that data followed by arbitrary further bytes, for types without binary_extension fields.", "quantifier": "for every modelled type without extension fields, every input and every suffix, all encodings", "why_tests_cant": "Quantifies over all byte strings, including malformed ones.", "anchors": ["/repo/decoder.go: Decode, Remaining", "/repo/decoder_bin.go", "/repo/decoder_borsh.go", "/repo/decoder_compact-u16.go"]}
{"id": "C07", "title": "Truncated input is rejected", "statement": "Decoding any strict prefix of the encoding of a value returns an error (never a panic, never success), for types without binary_extension fields. The same holds for any accepted input, written by the encoders or not: cut anywhere before where decoding stopped, it is an error.", "quantifier": "for every modelled type, representable value and every strict prefix of its encoding", "why_tests_cant": "All cut points of all encodings of all values.", "anchors": ["/repo/decoder_bin.go", "/repo/decoder_borsh.go", "/repo/decoder_compact-u16.go"]}
{"id": "C08", "title": "Encoding is injective and prefix free", "statement": "Two representable values of one type with the same encoding, or one encoding being a prefix of the other, have the same decoded normal form.", "quantifier": "for every modelled type and every pair of representable values", "why_tests_cant": "A statement about all pairs of values.", "anchors": ["/repo/encoder_bin.go", "/repo/encoder_borsh.go", "/repo/encoder_compact-u16.go"]}
{"id": "C09", "title": "Decoder never panics on untrusted bytes", "statement": "Decode into a fresh variable returns a value or an error - never panics - whatever the bytes are, for types without signed sizeof counts and without the tag combinations the decoder rejects by panicking.", "quantifier": "for every type in the stated class and every byte string", "why_tests_cant": "All byte strings of all lengths; fuzzing samples them only.", "anchors": ["/repo/decoder.go: Decode", "/repo/decoder_bin.go", "/repo/decoder_borsh.go", "/repo/decoder_compact-u16.go"]}
{"id": "C10", "title": "Decoder position stays in bounds and never moves back", "statement": "Decode never changes the data, never moves the position backwards and never moves it past the end of the data, on success and on error.", "quantifier": "for every modelled type, byte string and start position", "why_tests_cant": "Quantifies over all malformed inputs.", "anchors": ["/repo/decoder.go: Decode, Position, Remaining"]}
{"id": "C11", "title": "Byte counts are exact", "statement": "BinByteCount / BorshByteCount / CompactU16ByteCount return exactly the length of the corresponding Marshal result, and fail exactly when Marshal fails.", "quantifier": "for every modelled type and every value (representable or not)", "why_tests_cant": "All values.", "anchors": ["/repo/interface.go: BinByteCount, BorshByteCount, CompactU16ByteCount"]}
{"id": "C12", "title": "Written() counts every byte handed to the writer", "statement": "After any sequence of operations on an Encoder, Written() equals the total length of the slices passed to the underlying writer.", "quantifier": "for every sequence of encoder operations and any writer behaviour", "why_tests_cant": "Unbounded sequences and arbitrary failing writers.", "anchors": ["/repo/encoder.go: toWriter, Written"]}
{"id": "C13", "title": "Failing writers", "statement": "If the underlying writer fails, the output accepted so far is a prefix of the fault-free encoding, nothing is written after the first failure, and Encode returns an error for which errors.Is(err, writerErr) holds.", "quantifier": "for every modelled type, value and every writer (an arbitrary function of the call history)", "why_tests_cant": "Every possible fault point of every encoding.", "anchors": ["/repo/encoder.go: toWriter", "/repo/encoder_bin.go", "/repo/encoder_borsh.go", "/repo/encoder_compact-u16.go"]}
{"id": "C14", "title": "Borsh maps are encoded canonically", "statement": "The Borsh encoding of a map does not depend on the order in which the runtime enumerates the map, and the keys are written in ascending order. For float keys this is the order of the numbers the bits denote.", "quantifier": "for every map of every supported key kind and every enumeration order", "why_tests_cant": "Go randomises map iteration; tests see a few permutations only.", "anchors": ["/repo/encoder_borsh.go: encodeBorsh (reflect.Map), vComp"]}
{"id": "C15", "title": "Bin and compact-u16 maps decode to the same map in any order", "statement": "The bytes of a map in the Bin and compact-u16 encodings depend on the enumeration order, but each of them decodes to the same map and has the same length.", "quantifier": "for every map and every pair of enumeration orders", "why_tests_cant": "All permutations of all maps.", "anchors": ["/repo/encoder_bin.go: encodeBin (reflect.Map)", "/repo/decoder_bin.go: decodeBin (reflect.Map)"]}
{"id": "C16", "title": "Decoded slices are bounded by the input", "statement": "A slice produced by Decode never has more elements than there were unread bytes in the input, so a forged length cannot cause an allocation larger than the input.", "quantifier": "for every element type, byte string and forged length", "why_tests_cant": "All hostile length prefixes.", "anchors": ["/repo/decoder_bin.go: decodeBin (reflect.Slice)", "/repo/decoder_borsh.go", "/repo/decoder_compact-u16.go"]}
{"id": "C17", "title": "compact-u16 round trip", "statement": "For 0 <= n <= 65535, EncodeCompactU16Length appends 1 to 3 bytes which DecodeCompactU16 (whatever follows) reads back as n with that size; other n give an error and leave the buffer untouched.", "quantifier": "for every int n, initial buffer and trailing bytes", "why_tests_cant": "Trailing data and buffers are unbounded, n ranges over all 64-bit ints.", "anchors": ["/repo/compact-u16.go: EncodeCompactU16Length, DecodeCompactU16"]}
{"id": "C18", "title": "compact-u16 decoding is canonical", "statement": "DecodeCompactU16 accepts a byte string exactly when it starts with the encoding of some n in [0,65535], and then returns that n: there is one accepted spelling for every number (no aliases).", "quantifier": "for every byte string", "why_tests_cant": "All byte strings; the test has a table of a few rows.", "anchors": ["/repo/compact-u16.go: DecodeCompactU16"]}
{"id": "C19", "title": "Byte-reader variant of compact-u16 agrees", "statement": "DecodeCompactU16LengthFromByteReader returns the same number as DecodeCompactU16 on the same bytes, succeeds exactly when it does and reads exactly the bytes of the number.", "quantifier": "for every byte string served by the reader", "why_tests_cant": "All byte strings.", "anchors": ["/repo/compact-u16.go: DecodeCompactU16LengthFromByteReader"]}
{"id": "C20", "title": "Uvarint round trip and limits", "statement": "WriteUVarInt(v) followed by ReadUvarint64 returns v and consumes what was written for 0 <= v < 2^56; for every other int WriteUVarInt panics before writing anything.", "quantifier": "for every 64-bit int v and decoder contents", "why_tests_cant": "2^64 inputs.", "anchors": ["/repo/encoder.go: WriteUVarInt", "/repo/decoder.go: ReadUvarint64"]}
{"id": "C21", "title": "Varint round trip and limits", "statement": "WriteVarInt(v) followed by ReadVarint64 returns v for -2^55 <= v < 2^55; otherwise WriteVarInt panics. Varint16/Varint32 values always round trip.", "quantifier": "for every 64-bit int v", "why_tests_cant": "2^64 inputs.", "anchors": ["/repo/encoder.go: WriteVarInt", "/repo/decoder.go: ReadVarint64", "/repo/types.go: Varint16, Varint32"]}
{"id": "C22", "title": "Fixed width integers", "statement": "WriteUintN/WriteIntN followed by ReadUintN/ReadIntN with the same byte order returns the number, uses exactly N/8 bytes, big endian output is little endian output reversed, and every N/8-byte string is accepted by the reader (reads are onto and one to one).", "quantifier": "for every width, byte order, number in range and surrounding bytes", "why_tests_cant": "2^64 values.", "anchors": ["/repo/encoder.go: WriteUint16..WriteInt64", "/repo/decoder.go: ReadUint16..ReadInt64"]}
{"id": "C23", "title": "128-bit integers", "statement": "WriteUint128/ReadUint128 and WriteInt128/ReadInt128 round trip in both byte orders; Bytes() is the big endian representation of Hi*2^64+Lo whatever the Endianness, BigInt() is that number (two's complement for Int128).", "quantifier": "for all Lo, Hi and byte orders", "why_tests_cant": "2^128 values.", "anchors": ["/repo/u128.go: Uint128, Int128", "/repo/encoder.go: WriteUint128", "/repo/decoder.go: ReadUint128"]}
{"id": "C24", "title": "Floats and NaN", "statement": "Float bit patterns survive the round trip in both orders; with the Borsh encoding, and only with it, a NaN is refused by the writer (nothing written) and by the reader.", "quantifier": "for all 2^32 and 2^64 bit patterns, orders and encodings", "why_tests_cant": "2^64 values.", "anchors": ["/repo/encoder.go: WriteFloat32, WriteFloat64", "/repo/decoder.go: ReadFloat32, ReadFloat64"]}
{"id": "C25", "title": "Strings and byte slices", "statement": "WriteString/ReadString, WriteBytes(_, true)/ReadByteSlice and WriteRustString/ReadRustString round trip for every content, and a declared length beyond the remaining input is an error.", "quantifier": "for every byte content below the length limit, every encoding, any trailing data", "why_tests_cant": "Unbounded contents.", "anchors": ["/repo/encoder.go: WriteString, WriteBytes, WriteRustString", "/repo/decoder.go: ReadString, ReadByteSlice, ReadRustString, ReadLength"]}
{"id": "C26", "title": "SafeString sanitises UTF-8", "statement": "SafeReadUTF8String returns valid UTF-8 for every input, returns the input unchanged if it was valid, and is idempotent.", "quantifier": "for every byte string", "why_tests_cant": "All byte strings.", "anchors": ["/repo/decoder.go: SafeReadUTF8String, fixUtf", "/repo/types.go: SafeString"]}
{"id": "C27", "title": "Option flags", "statement": "WriteOption/ReadOption and WriteCOption/ReadCOption round trip. ReadOption takes 0 as absent and every other byte as present; ReadCOption takes the 32-bit values 0 and 1 and rejects all others with an error.", "quantifier": "for both flags and every input", "why_tests_cant": "All inputs, including malformed ones.", "anchors": ["/repo/encoder.go: WriteOption, WriteCOption", "/repo/decoder.go: ReadOption, ReadCOption"]}
{"id": "C28", "title": "Optional fields", "statement": "A field tagged optional (or coption in Borsh) is encoded as one absent flag when it holds its zero value and as a present flag followed by the plain encoding otherwise, and decoding an absent flag resets the field to zero.", "quantifier": "for every field type, value and previous contents of the destination", "why_tests_cant": "All field types and values.", "anchors": ["/repo/encoder_bin.go: encodeBin", "/repo/encoder_borsh.go: encodeBorsh", "/repo/decoder_borsh.go: decodeBorsh", "/repo/decoder_bin.go: decodeBin"]}
{"id": "C29", "title": "Borsh enums", "statement": "A Borsh complex enum is encoded as one ordinal byte followed by the selected variant only; decoding rejects any ordinal that has no variant, and never touches the other variants.", "quantifier": "for every enum type, ordinal and payload", "why_tests_cant": "All enum types and payloads.", "anchors": ["/repo/encoder_borsh.go: encodeComplexEnumBorsh", "/repo/decoder_borsh.go: deserializeComplexEnum"]}
{"id": "C30", "title": "sizeof counts", "statement": "A slice whose length is given by a sizeof field is encoded without a length prefix, and decoded with exactly the number of elements stored in that field.", "quantifier": "for every struct with sizeof fields and every value whose count matches", "why_tests_cant": "All structs and values.", "anchors": ["/repo/encoder_bin.go: encodeStructBin", "/repo/decoder_bin.go: decodeStructBin", "/repo/decoder.go: sizeof"]}
{"id": "C31", "title": "binary_extension fields", "statement": "Data written by an older version of a struct (without the trailing binary_extension fields) decodes with these fields left alone, and data written with them decodes completely.", "quantifier": "for every struct whose extension fields are at the end, every number of missing extension fields", "why_tests_cant": "All structs and values.", "anchors": ["/repo/decoder_bin.go: decodeStructBin", "/repo/decoder_borsh.go: decodeStructBorsh", "/repo/decoder_compact-u16.go"]}
{"id": "C32", "title": "Skipped and unexported fields", "statement": "Skipped and unexported fields contribute no bytes, their value never influences the encoding, and Decode leaves them untouched.", "quantifier": "for every struct type, field values and input", "why_tests_cant": "All struct types.", "anchors": ["/repo/encoder_bin.go: encodeStructBin", "/repo/decoder_bin.go: decodeStructBin", "/repo/tags-parser.go: parseFieldTag"]}
{"id": "C33", "title": "Tag parsing", "statement": "The effect of a bin tag depends on the set of its words only for order-insensitive words (skip, optional, coption, binary_extension, enum), the last of big/little and the last sizeof= win, and unknown words are ignored.", "quantifier": "for every tag string", "why_tests_cant": "All strings.", "anchors": ["/repo/tags-parser.go: parseFieldTag"]}
{"id": "C34", "title": "Peek and Read agree", "statement": "Peek(n) returns what ReadNBytes(n) would return, and does not move; both fail when fewer than n bytes remain or n is negative.", "quantifier": "for every n, data and position in bounds", "why_tests_cant": "All inputs.", "anchors": ["/repo/decoder.go: Peek, ReadNBytes, PeekDiscriminator, ReadTypeID"]}
{"id": "C35", "title": "Failed primitive reads do not move", "statement": "When a primitive read fails because the input is too short, the position is unchanged.", "quantifier": "for every primitive reader, data and position in bounds", "why_tests_cant": "All inputs.", "anchors": ["/repo/decoder.go: ReadUint8 .. ReadFloat64, ReadUvarint64"]}
{"id": "C36", "title": "Position invariant over operation sequences", "statement": "Starting from a fresh decoder, any sequence of reads, skips, peeks, decodes and valid SetPosition calls keeps 0 <= Position() <= Len() and Remaining() = Len() - Position(). After SetPosition with an argument of 2^63 or more the position is negative: every reader of a fixed size then panics, and SkipBytes leads back. Where Len() - Position() overflows an int, Remaining() is negative and only the readers that do not test it panic; the others return an error.", "quantifier": "for every finite sequence of operations with arbitrary arguments and arbitrary data", "why_tests_cant": "Unbounded sequences.", "anchors": ["/repo/decoder.go: SkipBytes, SetPosition, Position, Remaining, HasRemaining"]}
{"id": "C37", "title": "Reset is a fresh decoder", "statement": "After Reset(data) a decoder behaves like a new decoder on data with the same encoding: every later operation sequence gives the same results.", "quantifier": "for every earlier history and every later operation sequence", "why_tests_cant": "Unbounded histories.", "anchors": ["/repo/decoder.go: Reset"]}
{"id": "C38", "title": "Variant dispatch", "statement": "UnmarshalBinaryVariant reads the type ID in the declared encoding, dispatches to the registered type with that ID and decodes it from the following bytes; unknown IDs are errors, for every registered variant the round trip through its type ID returns it. After an error TypeID is that of the ID that was read (if one was), and Impl is untouched unless the registered type is a pointer type, when it points to what Decode leaves.", "quantifier": "for every list of registered types (up to the ID range), every type ID encoding and every payload", "why_tests_cant": "All registries and payloads.", "anchors": ["/repo/variant.go: NewVariantDefinition, BaseVariant.UnmarshalBinaryVariant, TypeID"]}
{"id": "C39", "title": "TypeID conversions", "statement": "TypeIDFromUint32/Uint8/Uvarint32/Bytes followed by the inverse accessor return the number, and the IDs of different numbers differ.", "quantifier": "for every number and byte order", "why_tests_cant": "2^32 values and pairs.", "anchors": ["/repo/variant.go: TypeIDFromUint32, TypeIDFromUvarint32, TypeIDFromUint8, TypeIDFromBytes"]}
{"id": "C40", "title": "Sighash", "statement": "Sighash(ns, name) is the first 8 bytes of SHA-256 of ns:name; SighashTypeID has the same bytes; an instruction's sighash does not change under renamings with the same snake case.", "quantifier": "for all strings", "why_tests_cant": "All strings.", "anchors": ["/repo/sighash.go: Sighash, SighashInstruction, SighashAccount, SighashTypeID"]}
{"id": "C41", "title": "Snake case", "statement": "ToRustSnakeCase of an ASCII string contains only lower case letters, digits and single separating underscores, keeps the letters and digits in order (lower-cased) and is idempotent.", "quantifier": "for every ASCII string", "why_tests_cant": "All strings.", "anchors": ["/repo/heck.go: ToRustSnakeCase, ToSnakeForSighash"]}
{"id": "C42", "title": "Pascal case", "statement": "ToPascalCase of an ASCII string contains only letters and digits and keeps them in order up to case.", "quantifier": "for every ASCII string", "why_tests_cant": "All strings.", "anchors": ["/repo/heck.go: ToPascalCase, transform, capitalize"]}
{"id": "C43", "title": "WriteByWrite records faithfully", "statement": "WriteByWrite.Bytes() is the concatenation of all written slices, and equals what a plain buffer would hold after the same encoding.", "quantifier": "for every sequence of writes", "why_tests_cant": "Unbounded sequences.", "anchors": ["/repo/tools.go: WriteByWrite"]}
{"id": "C44", "title": "FormatByteSlice is readable back", "statement": "FormatByteSlice and FormatDiscriminator are injective: different byte slices give different texts.", "quantifier": "for every pair of byte slices", "why_tests_cant": "All pairs.", "anchors": ["/repo/tools.go: FormatByteSlice, FormatDiscriminator"]}
{"id": "C45", "title": "JSON of 128-bit integers", "statement": "Unmarshalling the JSON of a little endian Uint128 gives the same number back; the JSON text is its decimal value.", "quantifier": "for all 2^128 numbers", "why_tests_cant": "2^128 values.", "anchors": ["/repo/u128.go: MarshalJSON, UnmarshalJSON, DecimalString"]}
{"id": "C46", "title": "JSON of Int64 and Uint64", "statement": "Unmarshalling the JSON of an Int64 / Uint64 gives the number back; the text is quoted exactly when the absolute value exceeds 2^32-1.", "quantifier": "for all 64-bit numbers", "why_tests_cant": "2^64 values.", "anchors": ["/repo/types.go: Int64, Uint64"]}
{"id": "C47", "title": "JSON of HexBytes", "statement": "Unmarshalling the JSON of HexBytes gives the same bytes back; the text is lower case hexadecimal of twice the length.", "quantifier": "for every byte string", "why_tests_cant": "All byte strings.", "anchors": ["/repo/types.go: HexBytes"]}
{"id": "C48", "title": "Reused destinations", "statement": "Decoding the encoding of a value into a variable that already holds some other value gives the same result as decoding into a fresh variable, except for the documented leftovers: skipped and unexported fields, interface fields, maps decoded from an empty Borsh or Bin map, Borsh slices decoded from an empty slice, and the enum variants that are not selected.", "quantifier": "for every type, old contents and new value", "why_tests_cant": "All pairs of contents.", "anchors": ["/repo/decoder_bin.go", "/repo/decoder_borsh.go", "/repo/decoder.go: indirect"]}
{"id": "C49", "title": "Bulk and element-wise integer arrays agree", "statement": "The specialised code for slices and arrays of uint8/16/32/64 reads and writes exactly what element-wise little endian reads and writes would.", "quantifier": "for every element width, length and input", "why_tests_cant": "All lengths and contents.", "anchors": ["/repo/encoder.go: reflect_writeArrayOfUint_", "/repo/decoder.go: reflect_readArrayOfUint_"]}
{"id": "C50", "title": "Byte slices returned by the decoder alias the input", "statement": "ReadNBytes, Peek and ReadByteSlice return views of the input: later writes to the input buffer are visible through them, and decoding never writes to the input.", "quantifier": "for every input and every later mutation", "why_tests_cant": "All mutations.", "anchors": ["/repo/decoder.go: readNBytes, ReadByteSlice, Peek"]}
{"id": "C51", "title": "Unsupported lengths in compact-u16", "statement": "Encoding a slice of more than 65535 elements with MarshalCompactU16 does not report an error although the result cannot be decoded (WriteCompactU16 drops the range error).", "quantifier": "for every element type with non-empty encodings and every slice longer than 65535", "why_tests_cant": "Tests never build such slices; the claim is about all of them.", "anchors": ["/repo/encoder.go: WriteCompactU16, WriteLength", "/repo/encoder_compact-u16.go"]}
{"id": "C52", "title": "Decoding is deterministic in the consumed bytes", "statement": "If Decode succeeds, the result depends only on the bytes it consumed: truncating the data right after the final position gives the same value, for types without extension fields whose slice elements are never empty.", "quantifier": "for every type in the class and every input", "why_tests_cant": "All byte strings.", "anchors": ["/repo/decoder.go", "/repo/decoder_bin.go", "/repo/decoder_borsh.go", "/repo/decoder_compact-u16.go"]}
{"id": "C53", "title": "Structs field by field", "statement": "Encoding a struct is encoding its first fields and then the remaining ones: the bytes are the concatenation, the first failure is the result; decoding a struct on any input is decoding the first fields and then the rest from where the first stopped.", "quantifier": "for every struct type without enums, every split of its fields not separated by sizeof counts, every value, writer and input", "why_tests_cant": "Composition over all structs, splits, writers and inputs is a universally quantified equation; tests only see particular structs.", "anchors": ["encoder_bin.go:encodeStructBin", "decoder_bin.go:decodeStructBin", "encoder_borsh.go:encodeStructBorsh", "decoder_borsh.go:decodeStructBorsh", "encoder_compact-u16.go:encodeStructCompactU16", "decoder_compact-u16.go:decodeStructCompactU16"]}
{"id": "C54", "title": "JSON of Bool", "statement": "Unmarshalling the JSON of a Bool gives it back; integers are accepted as truth values (nonzero is true) exactly when they fit 64 bits.", "quantifier": "for both truth values and every integer", "why_tests_cant": "The acceptance of all integers in range and the rejection of all others quantifies over infinitely many texts.", "anchors": ["types.go:Bool.UnmarshalJSON"]}
{"id": "C55", "title": "WriteByWrite keeps references", "statement": "Bytes of a WriteByWrite is the concatenation of the slices given to Write, as they are when Bytes is called: it is what was written if and only as long as the writers do not change their slices.", "quantifier": "for every heap, every sequence of writes and every later mutation", "why_tests_cant": "All mutations between Write and Bytes.", "anchors": ["/repo/tools.go: WriteByWrite.Write, Bytes"]}
{"id": "C56", "title": "Wire format of the library's own types", "statement": "SafeString, Bool, HexBytes, the Varint types, JSONFloat64, Int64, Uint64, the 128-bit types and EmptyVariant have the documented bytes in all three encodings and both field byte orders, directly and behind pointers, and come back as they were (but for the Endianness of 128-bit values); SafeString accepts any text and yields valid UTF-8; only EmptyVariant has no bytes.", "quantifier": "for every value of each type in range, every encoding, field order and decoding destination", "why_tests_cant": "Every value of fourteen types in three encodings, two byte orders and any destination.", "anchors": ["/repo/types.go: MarshalWithEncoder, UnmarshalWithDecoder methods", "/repo/u128.go: MarshalWithEncoder, UnmarshalWithDecoder", "/repo/encoder_borsh.go: EmptyVariant"]}
{"id": "C57", "title": "JSON texts accepted by the library types, exactly", "statement": "Int64, Uint64, HexBytes, Bool and Uint128 accept exactly the JSON texts of the stated grammars (RFC 8259 strings with escapes and surrogates, numbers in range, null, hexadecimal, Go integer literals for 128-bit values) and yield the value denoted; Uint128.UnmarshalJSON panics exactly for quoted integers of more than 128 bits and for 0x with sixteen hexadecimal digits.", "quantifier": "for every byte string and every value", "why_tests_cant": "All byte strings: acceptance and rejection of every text, not a list of samples.", "anchors": ["/repo/types.go: UnmarshalJSON methods of Bool, HexBytes, Int64, Uint64", "/repo/u128.go: UnmarshalJSON"]}
{"id": "C58", "title": "Struct tags as texts", "statement": "The options of a field are determined by the text of its struct tag: StructTag.Get returns exactly the value of the first pair key:\"value\" with the key, unquoted as a Go string literal, if everything before it is well formed, and the empty string otherwise; a tag with any list of pairs can be written, and keys other than bin, borsh_skip, borsh_enum make no difference. Mistakes in the text are silently ignored (refuted: a wrongly spaced tag is not an error).", "quantifier": "for every tag text, key and list of pairs", "why_tests_cant": "All texts with all escapes and orders of keys.", "anchors": ["/repo/tags-parser.go: parseFieldTag (tag.Get)"]}
{"id": "C59", "title": "JSON texts of JSONFloat64, exactly", "statement": "JSONFloat64.UnmarshalJSON accepts exactly JSON numbers, null, and JSON strings holding a Go floating-point literal (decimal or hexadecimal), an infinity or NaN; the result is the float64 nearest to the number denoted, ties to even; numbers that round to infinity are refused. Every finite float64 is the result of some JSON number. Refuted: texts of 100000 digits and more with an exponent as large, where the exponent is cut short and a text denoting 1 gives 0; different integers above 2^53 give the same value.", "quantifier": "for every byte string shorter than 2000 bytes (literals without exponent: of any length) and every float64", "why_tests_cant": "All texts and correct rounding of every number, including ties, subnormals and overflow.", "anchors": ["/repo/types.go: JSONFloat64.UnmarshalJSON"]}
{"id": "C60", "title": "Programs of method calls: what is written is read back", "statement": "Any sequence of calls of the writing methods of an Encoder (raw bytes, lengths, varints, fixed-width numbers in both orders, floats, 128-bit numbers, options, strings, compact lengths, whole values), with arguments in the stated ranges, succeeds and writes exactly the stated bytes; the corresponding sequence of calls of the reading methods of a Decoder over these bytes, at any position and followed by anything, returns the written values and stops at the end of the bytes.", "quantifier": "for every encoding, every sequence of calls, every reliable writer, every prior state and every surrounding bytes (total below 2^63 bytes)", "why_tests_cant": "All sequences of mixed calls, all arguments and states.", "anchors": ["/repo/encoder.go: Encoder.Write* methods, Encoder.Encode", "/repo/decoder.go: Decoder.Read*, SkipBytes, Discard, Decode"]}
{"id": "C61", "title": "Where round trips end", "statement": "Exact behaviour at the places where a written value does not come back: slices of elements without bytes are written as a count and refused unless enough bytes follow; an empty slice in Borsh and an empty map in every encoding leave the old contents of the destination; nil pointers outside optional fields write nothing (Bin, CompactU16) or the zero value (Borsh); texts of 2^31 bytes and more are written but refused on reading; a NaN map key is written and then the call panics. Refuted: decoding does not depend on the old contents; what was decoded can be encoded again; a sizeof count held in a field with its own methods is heeded by the Borsh decoder.", "quantifier": "for all encodings, element types, values, destinations and following bytes in the stated classes", "why_tests_cant": "All element types and lengths, including texts of gigabytes; contents of reused destinations.", "anchors": ["/repo/encoder_bin.go: encodeBin", "/repo/encoder_borsh.go: encodeBorsh", "/repo/encoder_compact-u16.go: encodeCompactU16", "/repo/decoder_bin.go: decodeBin", "/repo/decoder_borsh.go: decodeBorsh, decodeStructBorsh", "/repo/decoder_compact-u16.go: decodeCompactU16", "/repo/decoder.go: ReadLength, ReadRustString"]}
{"id": "C62", "title": "What a failing decoder leaves in the destination", "statement": "Whatever the outcome (success, error, panic), a destination that held a value of its type holds a value of its type afterwards. A struct is filled field by field: the fields before the failing one hold what decoding them alone gives, those after it are unchanged, and skipped or unexported fields are never touched; arrays likewise. A slice is unchanged or holds the elements read so far, a map is unchanged or holds the entries read so far. Numbers and booleans are zeroed by a failing read, texts and bulk-read sequences are left alone, pointers end up non-nil. On success this is the value of the other decoder theorems.", "quantifier": "for all encodings, types (with arbitrary UnmarshalWithDecoder methods), previous contents and inputs", "why_tests_cant": "All inputs cut at all places, all nested types, all previous contents, all behaviours of user-written methods.", "anchors": ["/repo/decoder_bin.go: decodeBin, decodeStructBin", "/repo/decoder_compact-u16.go: decodeCompactU16, decodeStructCompactU16", "/repo/decoder_borsh.go: decodeBorsh, decodeStructBorsh, deserializeComplexEnum", "/repo/decoder.go: indirect, reflect_readArrayOfUint_"]}
{"id": "C63", "title": "The encoders as written", "statement": "encodeBin, encodeCompactU16 and encodeBorsh with encodeStruct*, encodePrimitive and encodeComplexEnumBorsh, transcribed statement by statement over reflect values (kinds, Elem, Index, Field, MapIndex, method lookup), compute for every value of every type and all options exactly what the merged, type-directed description of the encoders used in the other claims says: same outcome, same writes, same state. Encode(nil) succeeds and writes nothing.", "quantifier": "for all types (methods on defined types, nesting of pointers, arrays, slices, maps, structs, enums), values, options, writers and encoder states", "why_tests_cant": "All types and values; the three functions differ in few statements and behave alike on most inputs.", "anchors": ["/repo/encoder_bin.go: encodeBin, encodeStructBin", "/repo/encoder_compact-u16.go: encodeCompactU16, encodeStructCompactU16", "/repo/encoder_borsh.go: encodePrimitive, encodeBorsh, encodeComplexEnumBorsh, encodeStructBorsh", "/repo/encoder.go: Encode"]}
{"id": "C64", "title": "The decoders as written", "statement": "decodeBin, decodeCompactU16 and decodeBorsh with decodeStruct*, deserializeComplexEnum and indirect, transcribed statement by statement over addressable variables in memory (Elem, Addr, Set, New, Append, SetMapIndex, method lookup through the address of a value), do for every type, option, input and previous contents exactly what the merged, type-directed description of the decoders used in the other claims says: same outcome, same position, same contents of the destination whether or not decoding fails, and nothing else in memory changes. Decode of a non-pointer is refused, Decode of a nil pointer panics. What the transcribed encoder writes the transcribed decoder reads back.", "quantifier": "for all types (methods on defined types, nesting of pointers, arrays, slices, maps, structs, enums), previous contents, options, inputs, positions and memories", "why_tests_cant": "All types, inputs and previous contents; the walk through pointers depends on nil-ness, options, names of types and methods in combination.", "anchors": ["/repo/decoder_bin.go: decodeBin, decodeStructBin", "/repo/decoder_compact-u16.go: decodeCompactU16, decodeStructCompactU16", "/repo/decoder_borsh.go: decodeBorsh, decodeStructBorsh, deserializeComplexEnum", "/repo/decoder.go: indirect, Decode"]}
{"id": "C65", "title": "Case conversion never panics and yields UTF-8", "statement": "ToPascalCase and ToRustSnakeCase, transcribed with their readers, rune indices and slice expressions, never index or slice out of range and compute what the structural model computes; the result is valid UTF-8 for every byte string, also if the argument is not.", "quantifier": "for all byte strings and all Unicode tables", "why_tests_cant": "The functions use the index of a rune as an index of a byte; that this stays in range for every string, including ill-formed UTF-8, is a statement about infinitely many strings.", "anchors": ["/repo/heck.go: transform, capitalize, lowercase, reader, ToPascalCase, ToRustSnakeCase"]}
{"id": "C66", "title": "Encoding numbers", "statement": "With the numbers of the three encodings every sequence of Decoder calls does what the model with three encodings does. The constructors panic exactly on the other numbers. SetEncoding accepts them: then Decode and the methods that read a length panic without reading, and all others do what they do under Bin.", "quantifier": "for all integers as Encoding, all decoder states, all sequences of calls", "why_tests_cant": "All integers and all call sequences; tests use the three constants.", "anchors": ["/repo/tags-options.go: Encoding, isValidEncoding, String", "/repo/decoder.go: NewDecoderWithEncoding, SetEncoding, ReadLength, Decode", "/repo/encoder.go: NewEncoderWithEncoding"]}
{"id": "C67", "title": "Interfaces that hold pointers", "statement": "Decoding into an interface variable that holds a non-nil pointer decodes into the variable pointed to exactly as decoding through the pointer would, and leaves the interface alone. If the field is optional and the pointee is not a pointer, an absent value sets the interface to nil instead. Nil interfaces, interfaces holding other values and an interface holding its own address are left alone without reading. Two or more interfaces holding each other's addresses make Decode run forever. A struct with such interfaces among its fields or those of structs nested in it, behind its pointers or behind its interfaces, all pointing to different variables, is decoded like the struct with pointers instead: same outcome, same bytes consumed, the same values in the fields and in the variables pointed to, interfaces and all other variables unchanged, also if decoding fails half-way; optional interfaces that are absent become nil as pointers would, and leave their variables alone. (In Borsh this is false of variables with their own UnmarshalWithDecoder: behind a pointer the method gets a new variable, behind an interface the old one. It is also false of two interfaces pointing to the same variable, which keeps what the second field reads.) So what Encode writes for the struct with pointers is read back into the struct with interfaces; what it writes for the struct with interfaces is not, as Encode writes nothing for interfaces.", "quantifier": "for all encodings, pointee types without interfaces (or structs with interfaces again), prior contents, memories, inputs and options; rings of any length; structs with any number of fields of any types, with any tags, nested to any depth, and Borsh enums", "why_tests_cant": "Involves aliasing between variables, all pointee types and outcomes including failures; non-termination cannot be observed by a test.", "anchors": ["/repo/decoder.go: indirect", "/repo/decoder_bin.go: decodeBin", "/repo/decoder_borsh.go: decodeBorsh", "/repo/decoder_compact-u16.go: decodeCompactU16", "/repo/decoder_borsh.go: decodeStructBorsh"]}
{"id": "C68", "title": "What the decoder accepts, exactly", "statement": "On every input Decode succeeds exactly if the input has a prefix in the language of the destination type, an attribute grammar over bytes written without the decoder's functions; it then consumes exactly that prefix and leaves the value the grammar assigns to it. The prefix and the value are unique. The formats of C05 are contained in the language, and the languages of the library's own types are given.", "quantifier": "for all encodings, types whose UnmarshalWithDecoder methods depend only on the input in front of them, prior contents, inputs and positions", "why_tests_cant": "An equivalence over all byte strings: also says that nothing else is accepted, and what becomes of bytes that no encoder writes.", "anchors": ["/repo/decoder_bin.go", "/repo/decoder_borsh.go", "/repo/decoder_compact-u16.go", "/repo/decoder.go", "/repo/types.go"]}
{"id": "C69", "title": "Decode, encode, decode again", "statement": "A value decoded into a new variable can be encoded, and the bytes decode to the same value (Borsh maps: see C81), also if extension fields were missing from the input. For types without extension fields, booleans, option flags (but COption pointers), varint counts, maps and float32 NaNs they are the very bytes that were read, so that no two inputs decode to the same value. Other types do not keep the bytes (witnesses), and a SafeString with malformed text may come out too long to be decoded again.", "quantifier": "for all encodings, inputs, and types of two classes given by recursion over the type; methods of user types under stated conditions, which 12 library types are shown to meet", "why_tests_cant": "All byte strings that decode, including those no encoder writes; malleability is a statement about pairs of inputs.", "anchors": ["/repo/decoder_bin.go", "/repo/decoder_borsh.go", "/repo/decoder_compact-u16.go", "/repo/encoder_bin.go", "/repo/encoder_borsh.go", "/repo/encoder_compact-u16.go", "/repo/types.go"]}
{"id": "C70", "title": "Recursive types", "statement": "A Go type that refers to itself is modelled by its unrollings, cut at TDeep. Decoding and encoding give the same result for every deeper unrolling as soon as the cut is not reached. Decoding never reaches the cut, for any input, if the type reads a byte before each mention of itself and is unrolled more often than there are bytes left. Encoding never reaches it if the unrolling is deeper than the value, in Borsh if nil pointers to the type carry a flag; without the flag Borsh encoding of nil does not terminate (it writes zeros at every depth), and a type that reads nothing before it mentions itself cannot be decoded. The same holds for types that mention each other: decoding ends if more bytes have to be read to get to a cut than there are, encoding if the cuts are further below than the value is deep. Values of such types come back from Marshal and Unmarshal as values of other types do.", "quantifier": "for all recursive types mentioned behind pointers, slices and map values (also types that mention each other), encodings, inputs, values and numbers of unrollings", "why_tests_cant": "Termination on all inputs of any length, and independence of the depth at which the model cuts a type.", "anchors": ["/repo/decoder_bin.go", "/repo/decoder_borsh.go", "/repo/decoder_compact-u16.go", "/repo/encoder_bin.go", "/repo/encoder_borsh.go", "/repo/encoder_compact-u16.go"]}
{"id": "C71", "title": "The work of decoding is bounded by the input", "statement": "Decoding calls, loop rounds, bytes of text, numbers of bulk reads and slots of new variables are counted. If the elements of slices and the keys or values of maps take up room in the input, the work is at most a constant of the type times one more than the number of bytes used up, whether decoding succeeds or fails and whatever lengths the input announces. Slices of elements without room cost at most a further factor of the length of the input, and `[][]struct{}` does cost it. For maps whose keys and values take up no room no bound holds: five bytes make as many rounds as they say, up to four billion.", "quantifier": "for all types, encodings, inputs (well formed or not) and prior contents; methods of user types with any cost that is linear in the bytes they use up", "why_tests_cant": "A bound on the work for all inputs, hostile ones included.", "anchors": ["/repo/decoder.go", "/repo/decoder_bin.go", "/repo/decoder_borsh.go", "/repo/decoder_compact-u16.go"]}
{"id": "C72", "title": "Methods called directly", "statement": "MarshalWithEncoder and UnmarshalWithDecoder of the library's types, called by the user on an encoder or decoder in any state, write and read the bytes of C56 in the byte order of currentFieldOpt. Without a currentFieldOpt the 128-bit types use their Endianness (little endian if nil), so that equal Endianness on both sides keeps the value, and Int64, Uint64 and JSONFloat64 panic. Encode leaves the order of its last field behind, which then overrides the Endianness of a number. Decode of anything but a pointer is an InvalidDecoderError that reads nothing; Decode of a nil pointer panics.", "quantifier": "for all library types, values they carry, encoder and decoder states, encodings and surrounding bytes", "why_tests_cant": "The tests call the methods through Encode and Decode, or with one order only.", "anchors": ["/repo/u128.go", "/repo/types.go", "/repo/error.go", "/repo/decoder.go"]}
{"id": "C73", "title": "Maps of interfaces", "statement": "Interfaces that are keys or values of maps are written as the values they hold (nil: nothing), recursively; interfaces anywhere else are written as nothing. What Encode does with values whose maps hold no interfaces does not depend on what interfaces hold. map[K]interface{} whose values all have the type T is written as map[K]T, errors included; map[interface{}]V whose keys all have the type K is written as map[K]V, in Borsh sorted by the keys inside the interfaces. A map that contains itself makes Encode call itself without end, writing at least a byte each time; and what is written for map[K]interface{} is not read back.", "quantifier": "for all encodings, types, values, assignments of dynamic values to interfaces, writers and encoder states", "why_tests_cant": "No test encodes an interface inside a map; nested documents and cyclic values are unbounded families.", "anchors": ["/repo/encoder_bin.go", "/repo/encoder_compact-u16.go", "/repo/encoder_borsh.go"]}
{"id": "C74", "title": "Sizes and common layouts", "statement": "From a type alone one reads off the least and, unless texts, slices or maps are involved, the most bytes of its values. A successful Decode consumes a number within these bounds, and fewer bytes than the least never decode; what Marshal writes is within them and consists of bytes. For types of numbers, arrays, pointers and structs without flags (and, in Borsh, floats) the least is enough: every input of that length decodes. Elements of one size are found at count + i * size. Two encodings write the same bytes for types without texts (and maps in Borsh), provided there are no counts between Borsh and the others, no flags between Bin and the others, and no big-endian fields in Borsh.", "quantifier": "for all types, encodings, inputs, prior contents, values; methods of user types with any bounds", "why_tests_cant": "Bounds over all inputs; every type and every length.", "anchors": ["/repo/encoder_bin.go", "/repo/encoder_compact-u16.go", "/repo/encoder_borsh.go", "/repo/decoder_bin.go", "/repo/decoder_compact-u16.go", "/repo/decoder_borsh.go"]}
{"id": "C75", "title": "Encoders built with Go 1.22", "statement": "reflect.Value.IsZero changed in Go 1.22: -0.0 is zero and fields called _ do not count. Encoders built with it write, for every value, exactly what the encoders built with Go 1.16 to 1.19 write for the value in which optional (and coption) fields that equal zero are replaced by the zero value: same bytes, errors, panics and state. The values differ only in what == cannot see, and nothing changes for types whose optional fields contain neither floats nor fields called _. That the two write the same for all values is refuted: the sign of an optional -0.0 is lost.", "quantifier": "for all encodings, types, values, encoder states and writers", "why_tests_cant": "The tests run with Go 1.16 to 1.19 only; the difference is in a library function for two kinds of values, and the claim that nothing else changes is about all types and values.", "anchors": ["/repo/encoder_bin.go", "/repo/encoder_compact-u16.go", "/repo/encoder_borsh.go", "/repo/.github/workflows/tests.yml"]}
{"id": "C76", "title": "JSON methods that fail", "statement": "HexBytes.UnmarshalJSON leaves, for a JSON string, the bytes of its longest prefix of pairs of hexadecimal digits, also when it returns an error; other errors leave the variable. Uint128.UnmarshalJSON leaves the number alone unless it succeeds, except that the panic of 0x and 16 digits has stored one half.", "quantifier": "for all texts and all old values", "why_tests_cant": "All texts; the values after errors are not looked at by any test.", "anchors": ["/repo/types.go: HexBytes.UnmarshalJSON", "/repo/u128.go: Uint128.UnmarshalJSON, unmarshalJSON_decimal, unmarshalJSON_hex"]}
{"id": "C77", "title": "Types that are written alike", "statement": "Rewriting a type by the equations of SameSpec.v (signed and unsigned numbers of a width, bools and floats as numbers, strings as byte slices outside Bin, defined types without methods, pointers to values, maps as slices of pairs, renaming fields, dropping fields that do not take part, flattening nested structs, arrays as structs, optional fields as flag and value, Borsh enums as number and value, more variants) does not change the bytes, and bytes written with one type are read with the other.", "quantifier": "for all derivations from the equations, all encodings, types and values", "why_tests_cant": "Quantifies over all rewritings of all types.", "anchors": ["/repo/encoder_bin.go", "/repo/encoder_compact-u16.go", "/repo/encoder_borsh.go", "/repo/decoder_bin.go", "/repo/decoder_compact-u16.go", "/repo/decoder_borsh.go"]}
{"id": "C78", "title": "Unexported variants of Borsh enums", "statement": "Marshal writes numbers and texts of an unexported variant, in enums the number and in turn the variant, and nothing of structs, slices, arrays, maps and nil pointers, without an error. Unmarshal never changes the value of such a variant: if it succeeds only the number of the enum has changed. Structs are skipped without reading; numbers, texts and enums never decode (numbers panic, even when bytes are missing), nor does a nil pointer. That enum values come back is refuted for such variants, both by loss in silence and by a panic on what Marshal wrote.", "quantifier": "for all enum types, variants, values, inputs and destinations", "why_tests_cant": "No test has an unexported variant; the loss is silent and the claims are about all types and inputs.", "anchors": ["/repo/encoder_borsh.go: encodeComplexEnumBorsh, encodeStructBorsh", "/repo/decoder_borsh.go: deserializeComplexEnum, decodeStructBorsh"]}
{"id": "C79", "title": "Exactly which values can be encoded", "statement": "Marshal of a value succeeds if and only if the value meets a condition stated on the value alone: no NaN in Borsh (outside of what sizeof cuts off, absent options and unexported fields), no int, uint, complex number, channel or function (except inside Borsh enums), sizeof tags on integers and not above the length of the slice, counts below 2^56 in Bin, map keys that have an order in Borsh when there are two of them and that equal themselves, enum numbers that have a variant, and no nil pointer to a type that has the method on the value outside Borsh. Otherwise Marshal returns an error or panics, and on types without sizeof, without such pointers and without such keys it does not panic. Of types that have none of these every value can be encoded.", "quantifier": "for all types over the library's types (or methods known to succeed exactly on given values), values and encodings", "why_tests_cant": "An equivalence over all types and values: tests show neither that all other values fail nor that all these succeed.", "anchors": ["/repo/encoder_bin.go", "/repo/encoder_compact-u16.go", "/repo/encoder_borsh.go", "/repo/encoder.go", "/repo/types.go", "/repo/u128.go"]}
{"id": "C80", "title": "Structs that embed types with methods", "statement": "A struct that embeds a type with MarshalWithEncoder or UnmarshalWithDecoder, as a value or as a pointer (alone at the shallowest depth at which there is such a method), is encoded and decoded by that method: Marshal writes the bytes of the embedded field only, Unmarshal changes that field only, and all other fields are lost without an error. If the method is on the pointer (EmptyVariant) and the field is embedded as a value, Marshal of a value writes all fields, Marshal of a pointer only the embedded one, and Unmarshal reads only that. A nil embedded pointer is handed to methods on the pointer; with a method on the value Marshal panics, and so does Unmarshal into a new variable for the library's types that have methods, as Unmarshal makes no new variable there. With two such methods at the shallowest depth, or none, the struct goes field by field. Round trips, agreement of Marshal of values and pointers, and that new variables can be decoded into, are refuted.", "quantifier": "for all declarations, depths of embedding, methods, values, inputs and encodings", "why_tests_cant": "No test embeds a type with methods; the loss is silent, and the rule is about all shapes of declarations.", "anchors": ["/repo/encoder_bin.go:60", "/repo/encoder_compact-u16.go:59", "/repo/encoder_borsh.go:114", "/repo/decoder.go:747", "/repo/decoder_borsh.go:411-435", "/repo/types.go", "/repo/encoder_borsh.go: EmptyVariant"]}
{"id": "C81", "title": "What comes back is written as it was", "statement": "A value that was encoded and then decoded into a new variable is encoded to the same bytes; in Borsh whatever the order in which its maps are visited, at any depth. The same holds from the second round on for a value that was decoded from arbitrary bytes (map entries in any order or repeated, counts not minimal, any nonzero boolean). It fails for optional empty slices and maps, for optional structs that differ from zero only in fields that are not written, and for malformed SafeStrings; and a Borsh map with boolean keys can be decoded but not encoded.", "quantifier": "for all encodings, all values that the format carries, all inputs, and types of a class given by recursion over the type (optional fields, keys and methods under stated conditions that are shown for scalars, pointers and 11 library types)", "why_tests_cant": "The tests compare one encoding with one expected value; that no information changes the bytes in a second round is about all values, nested maps in all orders, and all inputs.", "anchors": ["/repo/encoder_borsh.go", "/repo/decoder_borsh.go", "/repo/encoder_bin.go", "/repo/decoder_bin.go", "/repo/encoder_compact-u16.go", "/repo/decoder_compact-u16.go"]}
{"id": "C82", "title": "The calls of Write", "statement": "Marshal hands the writer exactly these byte slices, in this order, one per call of Write: each number, boolean, count, flag and enum index by itself, the content of a string by itself, and all elements of an array or slice of unsigned integers together; never an empty one (methods of user types aside), so there are at most as many calls as bytes. Together they are the bytes of the format. If call i fails, exactly the calls before it have been made, none follows, and the error is returned. The recorder WriteByWrite has one entry per call. The bytes alone do not determine the calls.", "quantifier": "for all types, values the format carries, encodings, and writers that fail at any call", "why_tests_cant": "Tests look at the bytes of a buffer, where the borders between calls are lost; the claim is about all types and all places of failure.", "anchors": ["/repo/encoder.go: toWriter, WriteBytes, WriteLength, WriteUint128, WriteString", "/repo/encoder_bin.go", "/repo/encoder_borsh.go", "/repo/encoder_compact-u16.go", "/repo/tools.go: WriteByWrite"]}
{"id": "C83", "title": "What a decoded value takes up is bounded by the input", "statement": "The slots of a value are its numbers, pointers, slices, maps, structs and bytes of text. A decoded value has at most as many slots as the variable had before plus the work of decoding; so if the elements of slices and the keys or values of maps take up room in the input, at most a constant of the type times one more than the number of bytes used up, whatever lengths the input announces. Slices of elements without room cost at most a further factor of the length of the input, and `[][]*struct{}` does cost it: n*n pointers from 6n+5 bytes. The library's own types give at most three units for each byte (SafeString puts three bytes for each byte that is not UTF-8).", "quantifier": "for all types, encodings, inputs and prior contents; methods of user types whose results are paid for by a cost that is linear in the bytes they use up", "why_tests_cant": "A bound on the size of the result for all inputs, hostile ones included.", "anchors": ["/repo/decoder.go", "/repo/decoder_bin.go", "/repo/decoder_borsh.go", "/repo/decoder_compact-u16.go", "/repo/types.go"]}
{"id": "C84", "title": "What is written is bounded by the value", "statement": "The bytes handed to Write and the number of calls of Write together are at most a constant of the type times the slots of the value (its numbers, pointers, slices, maps, structs and bytes of text), whatever the writer does and however Encode ends: with success, an error or a panic. In Bin and CompactU16 the constant is 24 for all types without methods of their own. In Borsh it depends on the type: a nil pointer is written as the zero value of what it would lead to, so a pointer to an array of n numbers is one slot and 8n bytes, and no number does for all types (refuted with such a type). The methods of the library hand over at most 11 for each slot.", "quantifier": "for all types, encodings, writers, encoder states and values as Go has them (the keys of a map differ); methods of user types that hand over at most a constant for each slot", "why_tests_cant": "A bound for all values and all types, including encodings that fail half way.", "anchors": ["/repo/encoder.go", "/repo/encoder_bin.go", "/repo/encoder_borsh.go", "/repo/encoder_compact-u16.go", "/repo/types.go", "/repo/u128.go"]}
{"id": "C85", "title": "EncodeCompactU16Length appends to the slice of the caller", "statement": "For a number from 0 to 65535 there is no error and *buf is what it was, followed by the LEB128 bytes of the number. Outside of the room between the length and the capacity of the slice nothing changes in memory; if the bytes fit into that room they are written there and the array stays the same, so two numbers appended to the same slice overwrite each other (refuted: they are independent). For other numbers there is an error and nothing changes.", "quantifier": "for all heaps, slices, numbers and ways in which append grows arrays", "why_tests_cant": "All capacities of the slice and all slices that share its array.", "anchors": ["/repo/compact-u16.go: EncodeCompactU16Length"]}
{"id": "C86", "title": "What a writer that keeps its slices sees of an Encoder", "statement": "A program calls the methods of an Encoder on a WriteByWrite (a writer that keeps the slices it is given) and assigns to its own byte slices in between. Bytes at the end shows, in order, the numbers, lengths, texts and []byte values as they were when they were written, and the slices given to Write, WriteBytes and as HexBytes as they are at the end. The encoder changes nothing in the memory of the caller. Without assignments the bytes, results and Written are those of the model without sharing; assignments after calls that hand over no slice are not seen. That Encode keeps no reference is refuted (HexBytes).", "quantifier": "for all programs, heaps, encodings and ways in which append grows arrays", "why_tests_cant": "All interleavings of calls and assignments and all overlaps of slices.", "anchors": ["/repo/encoder.go: toWriter, Write, WriteBytes, WriteLength, WriteString, WriteCompactU16, reflect_writeArrayOfBytes", "/repo/tools.go: WriteByWrite", "/repo/types.go: HexBytes.MarshalWithEncoder"]}
{"id": "C87", "title": "Encoding again what was decoded", "statement": "If decoding succeeds, the keys of every map in the result differ (an entry of the input that repeats a key replaces the earlier one; keys that are not equal to themselves, NaN, are all kept). Hence Marshal of the result, in any of the three encodings, gives a number of bytes in proportion to the bytes of the input used up, with factors that depend on the type alone, provided that the elements of slices and the entries of maps take up room in the input; otherwise the length of the input is one more factor. The methods of the library's types meet the conditions.", "quantifier": "for all types, inputs, pairs of encodings and variables decoded into", "why_tests_cant": "All types and all inputs, hostile ones included.", "anchors": ["/repo/decoder_bin.go: decodeBin", "/repo/decoder_compact-u16.go: decodeCompactU16", "/repo/decoder_borsh.go: decodeBorsh", "/repo/encoder_bin.go: encodeBin", "/repo/encoder_borsh.go: encodeBorsh"]}
{"id": "C88", "title": "Values that contain themselves", "statement": "Encode never succeeds with a value that contains itself through non-nil pointers, elements of slices and arrays, entries of maps, exported fields that are not skipped, or a pointer variant of a Borsh enum: every unrolling of the value, however deep, is exhausted or fails before. A ring of one node is written over and over again. Cycles through skipped fields do no harm.", "quantifier": "for all recursive types, values that contain themselves, encodings, writers and depths", "why_tests_cant": "The call does not return (it ends with a stack overflow that cannot be recovered from).", "anchors": ["/repo/encoder_bin.go: encodeBin, encodeStructBin", "/repo/encoder_compact-u16.go: encodeCompactU16", "/repo/encoder_borsh.go: encodeBorsh, encodeComplexEnumBorsh, encodeStructBorsh"]}
{"id": "C89", "title": "What errors.Is finds in errors", "statement": "The errors with a name that errors.Is can find in what Decode returns are given by a table over the type: strings, slices, maps and arrays of unsigned integers can report io.ErrUnexpectedEOF, counts of slices and maps in the bin encoding also ErrVarIntBufferSize, methods what they report; everything else has errors without a name. Struct fields pass names on. For types made of the library's no others occur: never io.EOF, io.ErrShortBuffer or *InvalidDecoderError. Types of numbers, flags and structs report none, also for truncated input, so that io.ErrUnexpectedEOF is no test for truncation (refuted), nor does it mean that more bytes would help (refuted). The other methods of Decoder report exactly the names of a table. In what Encode returns, errors.Is finds the error of the writer and no other name.", "quantifier": "for all types, values, inputs, encodings, decoder states, method calls and writers", "why_tests_cant": "Absence of an error for all types and inputs.", "anchors": ["/repo/decoder.go: Decode, Read*, ErrVarIntBufferSize", "/repo/decoder_bin.go: decodeBin", "/repo/decoder_borsh.go: decodeBorsh", "/repo/decoder_compact-u16.go: decodeCompactU16", "/repo/types.go: UnmarshalWithDecoder", "/repo/encoder.go: Encode"]}
