{
 "claims": [
  {
   "property": "C01",
   "status": "proved",
   "theorems": [
    "C01_bin_round_trip"
   ],
   "note": ""
  },
  {
   "property": "C02",
   "status": "proved",
   "theorems": [
    "C02_compact_round_trip"
   ],
   "note": ""
  },
  {
   "property": "C03",
   "status": "proved",
   "theorems": [
    "C03_borsh_round_trip"
   ],
   "note": ""
  },
  {
   "property": "C04",
   "status": "proved",
   "theorems": [
    "C04_streams"
   ],
   "note": ""
  },
  {
   "property": "C05",
   "status": "proved",
   "theorems": [
    "C05_wire_format"
   ],
   "note": ""
  },
  {
   "property": "C06",
   "status": "proved",
   "theorems": [
    "C06_trailing_bytes",
    "C06_extension_refuted"
   ],
   "note": "For custom codec methods with the locality property (proved for every library codec); C06_extension_refuted shows why extension fields are excluded."
  },
  {
   "property": "C07",
   "status": "proved",
   "theorems": [
    "C07_truncated",
    "C07_accepted"
   ],
   "note": "Types without binary_extension fields; custom codec methods local as in C06."
  },
  {
   "property": "C08",
   "status": "proved",
   "theorems": [
    "C08_injective"
   ],
   "note": ""
  },
  {
   "property": "C09",
   "status": "proved",
   "theorems": [
    "C09_value_or_error",
    "C09_fresh_variable",
    "C09_recursive_types",
    "C09_library_types",
    "C09_programs",
    "C09_signed_count_refuted",
    "C09_optional_codec_refuted",
    "C09_extension_order_refuted"
   ],
   "note": "For the class decodable (DecSafe.v), which includes all codec methods of the library. The _refuted theorems show panics outside the class: signed sizeof counts, optional fields with their own codec in Bin/compact-u16, normal fields after binary_extension fields."
  },
  {
   "property": "C10",
   "status": "proved",
   "theorems": [
    "C10_position_in_bounds"
   ],
   "note": ""
  },
  {
   "property": "C11",
   "status": "proved",
   "theorems": [
    "C11_byte_count",
    "C11_must_byte_count"
   ],
   "note": ""
  },
  {
   "property": "C12",
   "status": "proved",
   "theorems": [
    "C12_written"
   ],
   "note": ""
  },
  {
   "property": "C13",
   "status": "proved",
   "theorems": [
    "C13_failing_writer",
    "C13_prefix"
   ],
   "note": ""
  },
  {
   "property": "C14",
   "status": "proved",
   "theorems": [
    "C14_float_order",
    "C14_float_keys",
    "C14_order_irrelevant",
    "C14_ascending",
    "C14_bool_keys_refuted",
    "C14_named_int64_keys_refuted"
   ],
   "note": "Key kinds whose comparison is a strict order and does not panic (good_keys); bool and named int64 keys panic, see the _refuted theorems."
  },
  {
   "property": "C15",
   "status": "proved",
   "theorems": [
    "C15_same_value_and_length",
    "C15_one_map"
   ],
   "note": "Maps at any depth. In Bin/compact-u16 the enumeration order is the list order of the model."
  },
  {
   "property": "C16",
   "status": "proved",
   "theorems": [
    "C16_bounded",
    "C16_slice"
   ],
   "note": "Slices at most the number of unread bytes; strings at most three times that, since SafeReadUTF8String may replace each byte by three."
  },
  {
   "property": "C17",
   "status": "proved",
   "theorems": [
    "C17_compact_u16_round_trip"
   ],
   "note": ""
  },
  {
   "property": "C18",
   "status": "proved",
   "theorems": [
    "C18_compact_u16_canonical"
   ],
   "note": ""
  },
  {
   "property": "C19",
   "status": "proved",
   "theorems": [
    "C19_byte_reader",
    "C19_errors"
   ],
   "note": ""
  },
  {
   "property": "C20",
   "status": "proved",
   "theorems": [
    "C20_uvarint",
    "C20_uvarint_narrow",
    "C20_uvarint_total_refuted",
    "C20_uvarint32_range_refuted"
   ],
   "note": "The narrower readers truncate and the writer panics outside 0..2^56-1: stated as _refuted theorems."
  },
  {
   "property": "C21",
   "status": "proved",
   "theorems": [
    "C21_varint",
    "C21_varint_narrow"
   ],
   "note": ""
  },
  {
   "property": "C22",
   "status": "proved",
   "theorems": [
    "C22_fixed_width",
    "C22_onto"
   ],
   "note": ""
  },
  {
   "property": "C23",
   "status": "proved",
   "theorems": [
    "C23_hex_string",
    "C23_decimal_string",
    "C23_uint128"
   ],
   "note": ""
  },
  {
   "property": "C24",
   "status": "proved",
   "theorems": [
    "C24_floats",
    "C24_isnan"
   ],
   "note": ""
  },
  {
   "property": "C25",
   "status": "proved",
   "theorems": [
    "C25_strings",
    "C25_too_long",
    "C25_compact_limit_refuted"
   ],
   "note": "Lengths up to the limit of the format (count_max, bulk_max); C25_compact_limit_refuted shows what happens above."
  },
  {
   "property": "C26",
   "status": "proved",
   "theorems": [
    "C26_valid",
    "C26_unchanged",
    "C26_idempotent",
    "C26_good_char",
    "C26_bad_byte",
    "C26_fast_path",
    "C26_reader"
   ],
   "note": ""
  },
  {
   "property": "C27",
   "status": "proved",
   "theorems": [
    "C27_option",
    "C27_accepted",
    "C27_option_strict_refuted"
   ],
   "note": "ReadOption accepts every byte (C27_option_strict_refuted); ReadCOption only 0 and 1."
  },
  {
   "property": "C28",
   "status": "proved",
   "theorems": [
    "C28_zero_absent",
    "C28_nonzero_present",
    "C28_coption_zero_absent",
    "C28_coption_nonzero_present",
    "C28_absent_resets",
    "C28_present_decodes",
    "C28_double_pointer_refuted",
    "C28_borsh_custom_refuted",
    "C28_bin_custom_refuted"
   ],
   "note": "Field types without their own decoder for the decoder half. _refuted: pointers to pointers keep an outer pointer; Borsh reads custom types without the flag; Bin panics on absent custom types."
  },
  {
   "property": "C29",
   "status": "proved",
   "theorems": [
    "C29_selected_only",
    "C29_no_variant",
    "C29_decode",
    "C29_decode_rejects",
    "C29_others_untouched",
    "C29_slice_variant_refuted",
    "C29_custom_variant_refuted"
   ],
   "note": "Encoder: scripted codecs below the variant. _refuted: slice/array/map variants lose their payload; custom encodings are ignored."
  },
  {
   "property": "C30",
   "status": "proved",
   "theorems": [
    "C30_no_prefix",
    "C30_count_decoded",
    "C30_larger_count_refuted",
    "C30_smaller_count_refuted",
    "C30_hidden_count_refuted"
   ],
   "note": "Counts within int64. _refuted: larger count panics, smaller drops elements, unexported count fields are seen by the encoder only."
  },
  {
   "property": "C31",
   "status": "proved",
   "theorems": [
    "C31_older_data",
    "C31_missing",
    "C31_newer_data"
   ],
   "note": ""
  },
  {
   "property": "C32",
   "status": "proved",
   "theorems": [
    "C32_no_influence",
    "C32_no_bytes",
    "C32_untouched",
    "C32_hidden_sizeof_refuted"
   ],
   "note": "C32_hidden_sizeof_refuted: an unexported field with a sizeof tag is the exception."
  },
  {
   "property": "C33",
   "status": "proved",
   "theorems": [
    "C33_words",
    "C33_meaning",
    "C33_meaning_unique",
    "C33_same_words",
    "C33_true"
   ],
   "note": ""
  },
  {
   "property": "C34",
   "status": "proved",
   "theorems": [
    "C34_peek_read",
    "C34_discriminator"
   ],
   "note": ""
  },
  {
   "property": "C35",
   "status": "proved",
   "theorems": [
    "C35_fixed_short",
    "C35_fixed_enough",
    "C35_varint",
    "C35_length_prefixed_refuted"
   ],
   "note": "Fixed-size and variable-length integer readers. C35_length_prefixed_refuted: reads with a length prefix stop behind the length."
  },
  {
   "property": "C36",
   "status": "proved",
   "theorems": [
    "C36_positions",
    "C36_setposition_refuted",
    "C36_negative",
    "C36_overflow"
   ],
   "note": "Reads, skips, peeks, decodes, resets and SetPosition below 2^63; C36_setposition_refuted and C36_negative show what larger arguments do."
  },
  {
   "property": "C37",
   "status": "proved",
   "theorems": [
    "C37_reset"
   ],
   "note": ""
  },
  {
   "property": "C38",
   "status": "proved",
   "theorems": [
    "C38_defined",
    "C38_dispatch",
    "C38_unknown",
    "C38_round_trip",
    "C38_type_id",
    "C38_assign",
    "C38_type_id_unknown",
    "C38_anchor",
    "C38_anchor_unknown",
    "C38_no_id",
    "C38_no_id_panics",
    "C38_short",
    "C38_value_or_error",
    "C38_uint8_refuted",
    "C38_uvarint32_refuted",
    "C38_duplicate_name_refuted",
    "C38_into",
    "C38_left_known",
    "C38_left_anchor",
    "C38_left_unknown",
    "C38_left_short",
    "C38_left_cases",
    "C38_mixed_refuted"
   ],
   "note": "Refuted outside the stated ID range: more than 256 one-byte types, LEB128 IDs above 2^32 and names used twice; that TypeID and Impl agree after an error is refuted as well."
  },
  {
   "property": "C39",
   "status": "proved",
   "theorems": [
    "C39_uint32",
    "C39_uint32_injective",
    "C39_uvarint32",
    "C39_uvarint32_cut",
    "C39_uvarint32_injective",
    "C39_uint8",
    "C39_uint8_injective",
    "C39_bytes",
    "C39_equal",
    "C39_small_numbers",
    "C39_bytes_refuted"
   ],
   "note": "TypeIDFromBytes is not injective (C39_bytes_refuted)."
  },
  {
   "property": "C40",
   "status": "proved",
   "theorems": [
    "C40_instruction",
    "C40_account",
    "C40_first_bytes",
    "C40_sha256",
    "C40_sighash",
    "C40_type_id",
    "C40_instruction_words",
    "C40_instruction_snake",
    "C40_preimage",
    "C40_namespaces",
    "C40_namespace_refuted",
    "C40_account_refuted"
   ],
   "note": "crypto/sha256 is modelled by an executable SHA-256 tested on published vectors."
  },
  {
   "property": "C41",
   "status": "proved",
   "theorems": [
    "C41_words",
    "C41_characters",
    "C41_single_underscores",
    "C41_letters",
    "C41_idempotent",
    "C41_sighash",
    "C41_letters_refuted"
   ],
   "note": "ASCII; the Unicode tables are a parameter. Outside ASCII the letters are not kept (C41_letters_refuted)."
  },
  {
   "property": "C42",
   "status": "proved",
   "theorems": [
    "C42_words",
    "C42_characters",
    "C42_letters",
    "C42_first",
    "C42_snake_first",
    "C42_idempotent_refuted",
    "C42_letters_refuted"
   ],
   "note": "ASCII; outside ASCII refuted. Not idempotent (C42_idempotent_refuted)."
  },
  {
   "property": "C43",
   "status": "proved",
   "theorems": [
    "C43_bytes",
    "C43_recorder_is_buffer",
    "C43_report",
    "C43_string_injective"
   ],
   "note": ""
  },
  {
   "property": "C44",
   "status": "proved",
   "theorems": [
    "C44_is_byte_slice",
    "C44_format_byte_slice_injective",
    "C44_format_discriminator_injective"
   ],
   "note": "For bytes 0..255."
  },
  {
   "property": "C45",
   "status": "proved",
   "theorems": [
    "C45_text",
    "C45_little_endian",
    "C45_int128",
    "C45_big_endian_refuted",
    "C45_hex_panics",
    "C45_large_panics",
    "C45_sign_dropped",
    "C45_leading_zero_is_octal",
    "C45_null",
    "C45_int128_sign_refuted"
   ],
   "note": "Little endian numbers; C45_big_endian_refuted shows that big endian ones do not come back, C45_hex_panics and C45_large_panics which texts panic, C45_int128_sign_refuted that Int128 prints unsigned."
  },
  {
   "property": "C46",
   "status": "proved",
   "theorems": [
    "C46_int64_round_trip",
    "C46_uint64_round_trip",
    "C46_int64_text",
    "C46_uint64_text",
    "C46_int64_both",
    "C46_uint64_both",
    "C46_int64_range",
    "C46_uint64_range",
    "C46_int64_out_of_range"
   ],
   "note": ""
  },
  {
   "property": "C47",
   "status": "proved",
   "theorems": [
    "C47_round_trip",
    "C47_text",
    "C47_total"
   ],
   "note": ""
  },
  {
   "property": "C48",
   "status": "proved",
   "theorems": [
    "C48_reused_destination",
    "C48_overwritten"
   ],
   "note": ""
  },
  {
   "property": "C49",
   "status": "proved",
   "theorems": [
    "C49_bulk_read",
    "C49_bulk_write"
   ],
   "note": ""
  },
  {
   "property": "C50",
   "status": "proved",
   "theorems": [
    "C50_part_shows",
    "C50_part_store",
    "C50_part_append",
    "C50_part_bounds",
    "C50_part_extend",
    "C50_read_n_bytes",
    "C50_read_n_bytes_error",
    "C50_peek",
    "C50_read_byte_slice",
    "C50_hex_bytes",
    "C50_bytes_variable",
    "C50_array_variable",
    "C50_custom_variable",
    "C50_read",
    "C50_read_n_bytes_keeps",
    "C50_peek_keeps",
    "C50_read_byte_slice_keeps",
    "C50_independent_refuted",
    "C50_read_string",
    "C50_read_type_id"
   ],
   "note": "Method level heap model (Alias.v); the reflective decoder calls these methods but its own model has no sharing. Consequence: append to a returned slice overwrites the input (C50_independent_refuted)."
  },
  {
   "property": "C51",
   "status": "proved",
   "theorems": [
    "C51_no_length_written",
    "C51_never_decoded"
   ],
   "note": "The claim describes a defect; both halves (silent encoding without length, nothing decodes to such a slice) are proved."
  },
  {
   "property": "C52",
   "status": "proved",
   "theorems": [
    "C52_consumed_bytes"
   ],
   "note": "Types without extension fields whose slice elements take at least one byte."
  },
  {
   "property": "C53",
   "status": "proved",
   "theorems": [
    "C53_marshal_app",
    "C53_encode_app",
    "C53_decode_app",
    "C53_stale_order_refuted"
   ],
   "note": "Borsh decoder: the second part has no fields with their own decoder (C53_stale_order_refuted)."
  },
  {
   "property": "C54",
   "status": "proved",
   "theorems": [
    "C54_text",
    "C54_round_trip",
    "C54_numbers",
    "C54_numbers_out_of_range"
   ],
   "note": ""
  },
  {
   "property": "C55",
   "status": "proved",
   "theorems": [
    "C55_bytes",
    "C55_unchanged",
    "C55_reused_buffer_refuted",
    "C55_order"
   ],
   "note": ""
  },
  {
   "property": "C56",
   "status": "proved",
   "theorems": [
    "C56_format",
    "C56_pointer",
    "C56_marshal",
    "C56_safe_string",
    "C56_nonempty"
   ],
   "note": ""
  },
  {
   "property": "C57",
   "status": "proved",
   "theorems": [
    "C57_string",
    "C57_int64",
    "C57_uint64",
    "C57_hexbytes",
    "C57_bool",
    "C57_u128",
    "C57_u128_unique",
    "C57_u128_panics"
   ],
   "note": ""
  },
  {
   "property": "C58",
   "status": "proved",
   "theorems": [
    "C58_unquote",
    "C58_get",
    "C58_conventional",
    "C58_expressible",
    "C58_mistakes_refuted"
   ],
   "note": ""
  },
  {
   "property": "C59",
   "status": "proved",
   "theorems": [
    "C59_exact",
    "C59_parse",
    "C59_plain",
    "C59_nearest",
    "C59_nearest_exact",
    "C59_every_number",
    "C59_long_refuted",
    "C59_injective_refuted"
   ],
   "note": ""
  },
  {
   "property": "C60",
   "status": "proved",
   "theorems": [
    "C60_written",
    "C60_read",
    "C60_conversation"
   ],
   "note": ""
  },
  {
   "property": "C61",
   "status": "proved",
   "theorems": [
    "C61_blank_elements",
    "C61_stale_slice",
    "C61_empty_slice",
    "C61_stale_map",
    "C61_fresh_result_refuted",
    "C61_nil_silent",
    "C61_nil_zero",
    "C61_long_text",
    "C61_long_text_bin",
    "C61_nan_key",
    "C61_reencode_refuted",
    "C61_own_count_refuted"
   ],
   "note": ""
  },
  {
   "property": "C62",
   "status": "proved",
   "theorems": [
    "C62_same",
    "C62_typed",
    "C62_typed_types",
    "C62_struct",
    "C62_enum",
    "C62_array",
    "C62_slice",
    "C62_map",
    "C62_scalar",
    "C62_bulk",
    "C62_pointer"
   ],
   "note": "Second model (Dest.v) with the contents left whatever the outcome, tied to the first by C62_same."
  },
  {
   "property": "C63",
   "status": "proved",
   "theorems": [
    "C63_bin",
    "C63_compactU16",
    "C63_borsh",
    "C63_encode",
    "C63_encode_nil",
    "C63_library"
   ],
   "note": ""
  },
  {
   "property": "C64",
   "status": "proved",
   "theorems": [
    "C64_bin",
    "C64_compactU16",
    "C64_borsh",
    "C64_decode",
    "C64_not_a_pointer",
    "C64_nil_pointer",
    "C64_round_trip"
   ],
   "note": "After a panic the reading position is not compared (flag of an optional field with its own method). For types without interfaces, or if no interface holds a pointer; C67 has interfaces that hold pointers."
  },
  {
   "property": "C65",
   "status": "proved",
   "theorems": [
    "C65_pascal",
    "C65_snake",
    "C65_utf8"
   ],
   "note": "For all strings and tables."
  },
  {
   "property": "C66",
   "status": "proved",
   "theorems": [
    "C66_valid",
    "C66_constructors",
    "C66_shortcuts",
    "C66_names",
    "C66_panic",
    "C66_bin",
    "C66_detour"
   ],
   "note": "For all numbers, states and call sequences. A codec method that itself calls SetEncoding with another number is outside the model."
  },
  {
   "property": "C67",
   "status": "proved",
   "theorems": [
    "C67_through",
    "C67_decode",
    "C67_optional",
    "C67_left_alone",
    "C67_ring",
    "C67_returns_refuted",
    "C67_struct",
    "C67_struct_decode",
    "C67_struct_reads",
    "C67_return_refuted",
    "C67_own_refuted",
    "C67_alias_refuted"
   ],
   "note": "Pointee types without interfaces, or structs with interfaces of the same kind. Stated for one interface variable or its address in any memory, and for structs with interfaces among their fields, nested to any depth, in place, behind pointers or behind the interfaces (C67_struct: pointing to different variables, variants of enums exported). C67_returns_refuted: Decode does not always return (two interfaces holding each other's addresses). C67_own_refuted: why C67_struct excludes, in Borsh, pointees with their own UnmarshalWithDecoder. C67_alias_refuted: why it needs different variables. C67_return_refuted: Encode writes nothing for the interfaces that Decode reads through."
  },
  {
   "property": "C68",
   "status": "proved",
   "theorems": [
    "C68_exact",
    "C68_only",
    "C68_unique",
    "C68_wire",
    "C68_library",
    "C68_canonical_refuted"
   ],
   "note": "Types whose methods are regular (result depends only on the input in front of them; proved for the library's 14 types with UnmarshalWithDecoder methods), in Borsh without big-endian tags if there are methods. Maps are association lists; old contents are tree-shaped values. C68_canonical_refuted: one value has several accepted inputs."
  },
  {
   "property": "C69",
   "status": "proved",
   "theorems": [
    "C69_settles",
    "C69_same_bytes",
    "C69_one_form",
    "C69_library",
    "C69_same_bytes_refuted",
    "C69_safe_string_refuted",
    "C69_extension_refuted"
   ],
   "note": "Class steady excludes signed or 64-bit sizeof fields, option and coption on one field, elements and extension fields without bytes, extension fields whose zero value cannot be encoded; C69_settles also Borsh maps, which come back sorted (C81_decoded), and unflagged extension fields whose zero value comes back different, as nil slices in Bin do (C69_extension_refuted). C69_same_bytes_refuted and C69_safe_string_refuted show where it fails."
  },
  {
   "property": "C70",
   "status": "proved",
   "theorems": [
    "C70_many_decode",
    "C70_many_encode",
    "C70_many_round_trip",
    "C70_decode_cut",
    "C70_encode_cut",
    "C70_decode_ends",
    "C70_encode_ends",
    "C70_round_trip",
    "C70_borsh_nil",
    "C70_hollow"
   ],
   "note": "C70_many_* cover types that mention each other; the others take one self-referring type at a time. Methods of user types must not run into cuts of their own. C70_borsh_nil and C70_hollow show that the termination conditions are needed."
  },
  {
   "property": "C71",
   "status": "proved",
   "theorems": [
    "C71_same",
    "C71_method",
    "C71_linear",
    "C71_quadratic",
    "C71_quadratic_reached",
    "C71_map_refuted",
    "C71_library"
   ],
   "note": "The constant `toll` is computed from the type. Growth of slices (reflect.Append) and hashing of map keys are taken as one unit per element (amortised in Go). C71_map_refuted is the missing check of Remaining in the map loops (decoder_bin.go:217-243 and copies)."
  },
  {
   "property": "C72",
   "status": "proved",
   "theorems": [
    "C72_marshal",
    "C72_unmarshal",
    "C72_own_order",
    "C72_order_left_refuted",
    "C72_target"
   ],
   "note": "C72_order_left_refuted: the claim \"a number with an Endianness is written in it\" fails after an Encode of a big-endian field on the same encoder."
  },
  {
   "property": "C73",
   "status": "proved",
   "theorems": [
    "C73_same",
    "C73_writes",
    "C73_uniform",
    "C73_uniform_keys",
    "C73_elsewhere",
    "C73_knot",
    "C73_ends_refuted",
    "C73_round_trip_refuted"
   ],
   "note": "Refuted as one would first state it: Encode always ends (C73_ends_refuted, a map that contains itself) and maps of interfaces are read back (C73_round_trip_refuted)."
  },
  {
   "property": "C74",
   "status": "proved",
   "theorems": [
    "C74_consumes",
    "C74_short",
    "C74_total",
    "C74_writes",
    "C74_offset",
    "C74_library",
    "C74_alike"
   ],
   "note": "`own` bounds the UnmarshalWithDecoder methods of user types; `lib_own` is the table for the library types (C74_library)."
  },
  {
   "property": "C75",
   "status": "proved",
   "theorems": [
    "C75_encode",
    "C75_marshal",
    "C75_unaffected",
    "C75_equal",
    "C75_again",
    "C75_is_zero",
    "C75_same_refuted"
   ],
   "note": "That encoders built with Go 1.22 write the same for all values is refuted (C75_same_refuted)."
  },
  {
   "property": "C76",
   "status": "proved",
   "theorems": [
    "C76_hexbytes_way",
    "C76_hexbytes",
    "C76_u128_way",
    "C76_u128",
    "C76_hexbytes_kept_refuted"
   ],
   "note": "That HexBytes keeps its bytes when there is an error is refuted."
  },
  {
   "property": "C77",
   "status": "proved",
   "theorems": [
    "C77_bytes",
    "C77_read",
    "C77_wire",
    "C77_more_variants",
    "C77_text_refuted",
    "C77_order_refuted"
   ],
   "note": "Refuted: strings as byte slices in Bin, fields of big endian order as array elements."
  },
  {
   "property": "C78",
   "status": "proved",
   "theorems": [
    "C78_written",
    "C78_struct_not_written",
    "C78_struct_not_read",
    "C78_kept",
    "C78_values_fail",
    "C78_numbers_panic",
    "C78_nil_pointer_panics",
    "C78_round_trip_refuted"
   ],
   "note": "Refuted: that enum values with unexported variants come back. Embedded unexported variants are not modelled."
  },
  {
   "property": "C79",
   "status": "proved",
   "theorems": [
    "C79_exact",
    "C79_exact_methods",
    "C79_library",
    "C79_always"
   ],
   "note": "Maps of interfaces are in C73; keys with pointers are left out."
  },
  {
   "property": "C80",
   "status": "proved",
   "theorems": [
    "C80_rule",
    "C80_marshal",
    "C80_marshal_nil",
    "C80_pointer",
    "C80_nil",
    "C80_value",
    "C80_none",
    "C80_unmarshal",
    "C80_put",
    "C80_unmarshal_nil",
    "C80_variant",
    "C80_fresh",
    "C80_fresh_value",
    "C80_round_trip_refuted",
    "C80_pointer_agrees_refuted",
    "C80_fresh_refuted"
   ],
   "note": "Refuted: that structs with embedded methods round trip, that Marshal of a value and of a pointer to it agree, and that a new variable with an embedded pointer can be decoded into. Embedded interfaces are not modelled."
  },
  {
   "property": "C81",
   "status": "proved",
   "theorems": [
    "C81_same_bytes",
    "C81_any_order",
    "C81_decoded",
    "C81_optional",
    "C81_keys",
    "C81_plain_keys",
    "C81_library",
    "C81_same_bytes_refuted",
    "C81_decoded_refuted"
   ],
   "note": "Refuted for optional empty slices and maps, optional structs with fields that are not written, and malformed SafeStrings; a Borsh map with boolean keys can be decoded and not be encoded. Library types: the 12 of lasting_library."
  },
  {
   "property": "C82",
   "status": "proved",
   "theorems": [
    "C82_calls",
    "C82_bytes",
    "C82_failure",
    "C82_never_empty",
    "C82_library_never_empty",
    "C82_few",
    "C82_library",
    "C82_recorder",
    "C82_bytes_decide_refuted"
   ],
   "note": "The calls of a method of a user type are those it makes when run on a buffer."
  },
  {
   "property": "C83",
   "status": "proved",
   "theorems": [
    "C83_paid",
    "C83_linear",
    "C83_quadratic",
    "C83_quadratic_reached",
    "C83_library"
   ],
   "note": "Slots are values of the model, not bytes of memory: a number is one slot whatever its width, and spare capacity of slices is not counted."
  },
  {
   "property": "C84",
   "status": "proved",
   "theorems": [
    "C84_load",
    "C84_later",
    "C84_marshal",
    "C84_flat",
    "C84_library",
    "C84_nil",
    "C84_flat_borsh_refuted"
   ],
   "note": "Slots as in C83."
  },
  {
   "property": "C85",
   "status": "proved",
   "theorems": [
    "C85_appends",
    "C85_refused",
    "C85_in_place",
    "C85_independent_refuted"
   ],
   "note": "Heap model of Alias.v; the growth of append is a parameter."
  },
  {
   "property": "C86",
   "status": "proved",
   "theorems": [
    "C86_program",
    "C86_plain",
    "C86_copied",
    "C86_call",
    "C86_independent_refuted"
   ],
   "note": "Method level heap model (AliasEnc.v); Encode for []byte and HexBytes."
  },
  {
   "property": "C87",
   "status": "proved",
   "theorems": [
    "C87_keys",
    "C87_real",
    "C87_linear",
    "C87_quadratic",
    "C87_methods",
    "C87_library"
   ],
   "note": "Composes C83 and C84; the keys of decoded maps differ."
  },
  {
   "property": "C88",
   "status": "proved",
   "theorems": [
    "C88_never",
    "C88_cycle",
    "C88_marshal",
    "C88_ring"
   ],
   "note": "Values that contain themselves are given by their unrollings, as recursive types are in C70."
  },
  {
   "property": "C89",
   "status": "proved",
   "theorems": [
    "C89_decode",
    "C89_methods",
    "C89_keeps",
    "C89_library",
    "C89_countless",
    "C89_truncated_refuted",
    "C89_continued_refuted",
    "C89_occur",
    "C89_calls",
    "C89_encode",
    "C89_encode_library"
   ],
   "note": ""
  }
 ]
}
