{
 "claims": [
  {
   "property": "C01",
   "status": "proved",
   "theorems": [
    "C01_take_int",
    "C01_take_u24",
    "C01_take_f32",
    "C01_take_f64",
    "C01_in_range"
   ],
   "note": "floats by bit pattern; ne_ variants for a little-endian target"
  },
  {
   "property": "C02",
   "status": "proved",
   "theorems": [
    "C02_push_take_round_trip"
   ],
   "note": ""
  },
  {
   "property": "C03",
   "status": "proved",
   "theorems": [
    "C03_push_take_uint",
    "C03_take_uint",
    "C03_wide_push_refused",
    "C03_wide_be_take_refused",
    "C03_signed_refuted"
   ],
   "note": "signed variable-width values do not round trip (finding)"
  },
  {
   "property": "C04",
   "status": "proved",
   "theorems": [
    "C04_untake_agrees_with_take"
   ],
   "note": ""
  },
  {
   "property": "C05",
   "status": "proved",
   "theorems": [
    "C05_reading_stays_in_bounds",
    "C05_wide_le_panics_refuted",
    "C05_position_past_end_refuted"
   ],
   "note": "the excluded cases do panic (findings)"
  },
  {
   "property": "C06",
   "status": "proved",
   "theorems": [
    "C06_failed_reads_do_not_consume"
   ],
   "note": ""
  },
  {
   "property": "C07",
   "status": "proved",
   "theorems": [
    "C07_takes_partition"
   ],
   "note": ""
  },
  {
   "property": "C08",
   "status": "proved",
   "theorems": [
    "C08_find_subsequence"
   ],
   "note": ""
  },
  {
   "property": "C09",
   "status": "proved",
   "theorems": [
    "C09_find_subsequence_needle"
   ],
   "note": ""
  },
  {
   "property": "C10",
   "status": "proved",
   "theorems": [
    "C10_find_subsequences"
   ],
   "note": "aho-corasick modelled by its documented result"
  },
  {
   "property": "C11",
   "status": "proved",
   "theorems": [
    "C11_take_bytes_starts"
   ],
   "note": ""
  },
  {
   "property": "C12",
   "status": "proved",
   "theorems": [
    "C12_push_frame",
    "C12_empty_push_past_end_refuted"
   ],
   "note": ""
  },
  {
   "property": "C13",
   "status": "proved",
   "theorems": [
    "C13_pushes_concatenate"
   ],
   "note": ""
  },
  {
   "property": "C14",
   "status": "proved",
   "theorems": [
    "C14_push_outcome",
    "C14_refused_iff",
    "C14_wraparound_refuted"
   ],
   "note": ""
  },
  {
   "property": "C15",
   "status": "proved",
   "theorems": [
    "C15_buffer_is_a_file"
   ],
   "note": ""
  },
  {
   "property": "C16",
   "status": "partial",
   "theorems": [
    "C16_seek_moves_partial",
    "C16_seek_returns_old_position",
    "C16_returned_offset_refuted"
   ],
   "note": "the move is right; the returned offset is the old position, contrary to std::io::Seek (finding)"
  },
  {
   "property": "C17",
   "status": "partial",
   "theorems": [
    "C17_field_order",
    "C17_decode_int",
    "C17_encode_int",
    "C17_only_the_order_in_force_partial",
    "C17_not_inherited",
    "C17_map_refuted"
   ],
   "note": "For all types in both directions. Exception, refuted: an order written on a map with split or linend does not reach its keys or values."
  },
  {
   "property": "C18",
   "status": "proved",
   "theorems": [
    "C18_decode",
    "C18_decode_short",
    "C18_encode",
    "C18_round_trip",
    "C18_too_long_decode",
    "C18_too_long_encode"
   ],
   "note": ""
  },
  {
   "property": "C19",
   "status": "proved",
   "theorems": [
    "C19_encode",
    "C19_decode",
    "C19_round_trip",
    "C19_value_too_big_refuted",
    "C19_no_start_refuted"
   ],
   "note": ""
  },
  {
   "property": "C20",
   "status": "proved",
   "theorems": [
    "C20_bytes",
    "C20_strings",
    "C20_key",
    "C20_long_string_refuted"
   ],
   "note": "HexString/HexBytes/&[u8] share one codec, String/&str another."
  },
  {
   "property": "C21",
   "status": "proved",
   "theorems": [
    "C21_string",
    "C21_ill_formed",
    "C21_framing",
    "C21_unique"
   ],
   "note": "text (Utf8Spec.v) is RFC 3629."
  },
  {
   "property": "C22",
   "status": "proved",
   "theorems": [
    "C22_decode",
    "C22_decode_error",
    "C22_encode",
    "C22_read_back",
    "C22_many_elements_refuted",
    "C22_count_and_prefix_refuted"
   ],
   "note": ""
  },
  {
   "property": "C23",
   "status": "proved",
   "theorems": [
    "C23_longest_prefix",
    "C23_position_refuted"
   ],
   "note": ""
  },
  {
   "property": "C24",
   "status": "proved",
   "theorems": [
    "C24_decode",
    "C24_length_zero",
    "C24_encode",
    "C24_none_refuted",
    "C24_position_refuted"
   ],
   "note": ""
  },
  {
   "property": "C25",
   "status": "proved",
   "theorems": [
    "C25_any_order",
    "C25_last_wins"
   ],
   "note": ""
  },
  {
   "property": "C26",
   "status": "proved",
   "theorems": [
    "C26_array_decode",
    "C26_array_error",
    "C26_array_encode",
    "C26_tuple_decode",
    "C26_tuple_encode"
   ],
   "note": "Tuples of any length."
  },
  {
   "property": "C27",
   "status": "proved",
   "theorems": [
    "C27_round_trip",
    "C27_decode",
    "C27_short",
    "C27_by_length",
    "C27_net_number",
    "C27_no_length"
   ],
   "note": ""
  },
  {
   "property": "C28",
   "status": "partial",
   "theorems": [
    "C28_round_trip",
    "C28_display",
    "C28_accepts",
    "C28_accepted_partial",
    "C28_short_refuted",
    "C28_plus_refuted"
   ],
   "note": "The round trip holds for all addresses. 'accepts only six two-digit groups' is false: fewer groups and a plus sign are accepted (refuted); C28_accepted_partial says exactly what is accepted."
  },
  {
   "property": "C29",
   "status": "proved",
   "theorems": [
    "C29_lowercase",
    "C29_uppercase",
    "C29_parse",
    "C29_accepts",
    "C29_rejects",
    "C29_no_panic",
    "C29_encode_decode",
    "C29_display",
    "C29_decode_refuted"
   ],
   "note": ""
  },
  {
   "property": "C30",
   "status": "proved",
   "theorems": [
    "C30_round_trip",
    "C30_encode_anywhere",
    "C30_decode_anywhere",
    "C30_char_refuted",
    "C30_from_str_refuted",
    "C30_offset_untake_refuted"
   ],
   "note": "well_formed excludes the leaks of C36, variables needed for encoding (C37) and from_str fields written twice."
  },
  {
   "property": "C31",
   "status": "proved",
   "theorems": [
    "C31_round_trip",
    "C31_first_arm",
    "C31_no_arm",
    "C31_literals",
    "C31_exclusive_range_refuted",
    "C31_bits_refuted",
    "C31_default_refuted",
    "C31_byte_count_refuted",
    "C31_disabled_refuted",
    "C31_default_first_refuted",
    "C31_prefix_default_refuted"
   ],
   "note": ""
  },
  {
   "property": "C32",
   "status": "proved",
   "theorems": [
    "C32_counts",
    "C32_offset_refuted",
    "C32_bits_refuted"
   ],
   "note": "Not for offset padding or the later members of a bit-field group (refuted)."
  },
  {
   "property": "C33",
   "status": "proved",
   "theorems": [
    "C33_truncated",
    "C33_truncated_encoding"
   ],
   "note": "Classes delimited/safe/moderate in SafetySpec.v."
  },
  {
   "property": "C34",
   "status": "proved",
   "theorems": [
    "C34_total",
    "C34_total_in_context",
    "C34_offset_refuted",
    "C34_byteorder_refuted",
    "C34_little_endian_refuted",
    "C34_loop_refuted"
   ],
   "note": "Each condition of the class is shown to be needed."
  },
  {
   "property": "C35",
   "status": "proved",
   "theorems": [
    "C35_local",
    "C35_open_ended_refuted"
   ],
   "note": ""
  },
  {
   "property": "C36",
   "status": "partial",
   "theorems": [
    "C36_decode_partial",
    "C36_encode_partial",
    "C36_tuple_struct_partial",
    "C36_tuple_struct_decode_refuted",
    "C36_tuple_struct_round_trip_refuted",
    "C36_variant_encode_refuted"
   ],
   "note": "True of structs with named fields and, when no modifiers are left over, of tuple structs; false of tuple struct decoding and enum variant encoding (refuted)."
  },
  {
   "property": "C37",
   "status": "partial",
   "theorems": [
    "C37_decode_partial",
    "C37_round_trip_partial",
    "C37_encode_refuted"
   ],
   "note": "Decoding and lengths the encoder does not need; variables are not passed on when encoding (refuted)."
  },
  {
   "property": "C38",
   "status": "partial",
   "theorems": [
    "C38_slice_agrees_partial",
    "C38_find_refuted",
    "C38_find_panics_refuted",
    "C38_byteorder_uint_refuted"
   ],
   "note": "false for find_* and take_byteorder_uint/int on slices (findings)"
  },
  {
   "property": "C39",
   "status": "proved",
   "theorems": [
    "C39_cursor_agrees"
   ],
   "note": "take_byteorder_uint/int excluded: BufReadMut's versions have no width argument"
  },
  {
   "property": "C40",
   "status": "proved",
   "theorems": [
    "C40_canonical",
    "C40_canonical_whole",
    "C40_unique",
    "C40_other_schemas_refuted"
   ],
   "note": "For every schema in the class of canonical descriptions (fixed-width numbers, length-prefixed strings and lists, markers, bit groups covering their word, enums with numbered tags), decoding successfully implies the consumed bytes are exactly the encoding of the value, so no two byte strings decode to the same value. Outside the class the claim is false: C40_other_schemas_refuted gives one schema of each kind."
  },
  {
   "property": "C41",
   "status": "proved",
   "theorems": [
    "C41_bounded",
    "C41_bounded_whole",
    "C41_takes_a_byte",
    "C41_zero_size_refuted"
   ],
   "note": "For every schema without offset whose collection elements take a byte. Without that condition the claim is false: C41_zero_size_refuted shows that for every n below 2^32 four input bytes decode to n elements of Vec<()> or Vec<Option<u8>>."
  },
  {
   "property": "C42",
   "status": "proved",
   "theorems": [
    "C42_struct",
    "C42_variant",
    "C42_struct_mismatch",
    "C42_variant_mismatch",
    "C42_skipped_refuted"
   ],
   "note": "Not for fields that also have skip_decode or from_str (refuted)."
  },
  {
   "property": "C43",
   "status": "proved",
   "theorems": [
    "C43_struct",
    "C43_variant",
    "C43_from_str_refuted"
   ],
   "note": "Not for fields with from_str or offset (refuted)."
  },
  {
   "property": "C44",
   "status": "proved",
   "theorems": [
    "C44_decode"
   ],
   "note": "typed: what the Rust compiler checks of the functions in attributes."
  },
  {
   "property": "C45",
   "status": "proved",
   "theorems": [
    "C45_encode",
    "C45_bits",
    "C45_reencode",
    "C45_reencode_bits",
    "C45_byteorder_refuted",
    "C45_wide_bits_refuted"
   ],
   "note": ""
  },
  {
   "property": "C46",
   "status": "proved",
   "theorems": [
    "C46_to_bits",
    "C46_from_to",
    "C46_to_from",
    "C46_multicast",
    "C46_broadcast",
    "C46_zero",
    "C46_net_kinds",
    "C46_net_broadcast",
    "C46_net_multicast"
   ],
   "note": ""
  },
  {
   "property": "C47",
   "status": "proved",
   "theorems": [
    "C47_contract",
    "C47_round_trip",
    "C47_any_ip",
    "C47_accepted",
    "C47_number",
    "C47_kinds",
    "C47_short_refuted"
   ],
   "note": "std_ip (IpText.v) models the text forms of IP addresses in the standard library; C47_any_ip is the same for any text forms that meet ip_standard."
  },
  {
   "property": "C48",
   "status": "proved",
   "theorems": [
    "C48_numbers",
    "C48_expressions",
    "C48_accepted",
    "C48_lenient_refuted"
   ],
   "note": "Besides numerals, a plus sign and repeated 0x are let through (refuted that only numerals are numbers)."
  },
  {
   "property": "C49",
   "status": "proved",
   "theorems": [
    "C49_words",
    "C49_no_panic",
    "C49_parse",
    "C49_parse_int",
    "C49_expressions"
   ],
   "note": ""
  },
  {
   "property": "C50",
   "status": "proved",
   "theorems": [
    "C50_each",
    "C50_all",
    "C50_codecs",
    "C50_order",
    "C50_unknown",
    "C50_first_line",
    "C50_other_lines",
    "C50_second_line_refuted",
    "C50_default_hides_refuted",
    "C50_repr_hides_refuted"
   ],
   "note": "says (AttrSpec.v) gives the meaning of each entry. Attributes after the first line are ignored (refuted that they count)."
  },
  {
   "property": "C51",
   "status": "proved",
   "theorems": [
    "C51_decode",
    "C51_encode",
    "C51_round_trip",
    "C51_others_ignored",
    "C51_check_refuted",
    "C51_offset_refuted"
   ],
   "note": "keeps_format (WireSpec.v) is the contract of the two functions; offset on such a field is excluded (refuted)."
  },
  {
   "property": "C52",
   "status": "proved",
   "theorems": [
    "C52_every_read"
   ],
   "note": ""
  },
  {
   "property": "C53",
   "status": "proved",
   "theorems": [
    "C53_decode",
    "C53_encode",
    "C53_order_number_refuted"
   ],
   "note": "conveys (FieldSpec.v) says what each modifier tells the codec. published (FieldSpec.v) says which variables the earlier fields hand on; they are handed on by the decoder only (see C28). Modifiers executed by the container itself (offset, if, skip, ...) are excluded here and covered by C22, C25, C26, C28, C36, C37."
  },
  {
   "property": "C54",
   "status": "proved",
   "theorems": [
    "C54_default",
    "C54_only",
    "C54_unknown",
    "C54_other_lines",
    "C54_skipped_refuted",
    "C54_generic_refuted"
   ],
   "note": "has_default (JDefaultSpec.v) gives the default value of a declaration. Fields of generic type without a default do not compile; a skipped field is decoded to the default of its type (both refuted)."
  },
  {
   "property": "C55",
   "status": "proved",
   "theorems": [
    "C55_variant",
    "C55_none",
    "C55_two"
   ],
   "note": "The value of the variant is given by C54_default."
  },
  {
   "property": "C56",
   "status": "proved",
   "theorems": [
    "C56_push",
    "C56_history",
    "C56_buffer",
    "C56_fixed"
   ],
   "note": "writer (WriteMutSpec.v) is what an implementor promises; Buffer and a fixed-size cursor are shown to keep it."
  },
  {
   "property": "C57",
   "status": "proved",
   "theorems": [
    "C57_encode",
    "C57_decode",
    "C57_stream",
    "C57_unambiguous"
   ],
   "note": "fits (WireSpec.v) says when a value can be told from what follows it."
  },
  {
   "property": "C58",
   "status": "partial",
   "theorems": [
    "C58_arrays_partial",
    "C58_drop_refuted",
    "C58_numbers",
    "C58_numbers_mut",
    "C58_numbers_slice",
    "C58_implementor_refuted"
   ],
   "note": "Arrays of types with drop glue (String, Vec, ...) drop uninitialised memory (C58_drop_refuted, exactly when); number readers are safe for all implementors that keep the provided take_bytes, not for every implementor (C58_implementor_refuted)."
  },
  {
   "property": "C59",
   "status": "proved",
   "theorems": [
    "C59_mac",
    "C59_hex_string",
    "C59_net",
    "C59_plain",
    "C59_bytes",
    "C59_owned_refuted"
   ],
   "note": "For input that holds the string as it is (e.g. serde_json::from_str). Input that hands over an owned string (a stream, serde_json::Value) is always refused (refuted)."
  },
  {
   "property": "C60",
   "status": "partial",
   "theorems": [
    "C60_get_partial",
    "C60_get_option_partial",
    "C60_convert_partial",
    "C60_convert_option_partial",
    "C60_vector_partial",
    "C60_vector_option_partial",
    "C60_single_partial",
    "C60_default_partial",
    "C60_only",
    "C60_listing",
    "C60_name_refuted",
    "C60_lost_name_refuted",
    "C60_option_type_refuted",
    "C60_comma_refuted",
    "C60_raw_refuted",
    "C60_raw_literal_refuted"
   ],
   "note": "For all identifiers: the name of a function has lost every get_ in it (named_for; refuted for every such name); raw identifiers, comma types and get with a type on an Option field do not compile (refuted)."
  },
  {
   "property": "C61",
   "status": "proved",
   "theorems": [
    "C61_record",
    "C61_forward",
    "C61_forward_all",
    "C61_forward_type"
   ],
   "note": "Fields of the same name have the same type in all variants."
  },
  {
   "property": "C62",
   "status": "proved",
   "theorems": [
    "C62_read",
    "C62_advance",
    "C62_decode",
    "C62_decode_same",
    "C62_offset_refuted",
    "C62_push",
    "C62_write",
    "C62_encode",
    "C62_encode_new",
    "C62_encode_same",
    "C62_word_refuted",
    "C62_io",
    "C62_io_same",
    "C62_seek",
    "C62_mut",
    "C62_slice",
    "C62_cursor",
    "C62_cursor_advance"
   ],
   "note": "The refuted theorems are the cases the claim excepts: an offset past 2^64 and a bit field without its word."
  },
  {
   "property": "C63",
   "status": "proved",
   "theorems": [
    "C63_container",
    "C63_no_line",
    "C63_determined",
    "C63_unknown",
    "C63_both_refuted",
    "C63_repr_refuted"
   ],
   "note": "decided, announced, about_* are in EnumTextSpec.v. With both branch_starts_with and branch_starts_with_untake encoder and decoder disagree (refuted); #[repr(C)] and signed reprs are refused."
  },
  {
   "property": "C64",
   "status": "proved",
   "theorems": [
    "C64_numbers",
    "C64_texts",
    "C64_arms",
    "C64_bytes_arms",
    "C64_chain",
    "C64_chain_takes",
    "C64_hex_range_refuted",
    "C64_open_range_refuted",
    "C64_alternatives_refuted",
    "C64_dots_refuted",
    "C64_names_refuted"
   ],
   "note": "declares (EnumTextSpec.v) links a declaration to the vspec the codec theorems speak of. Texts for which the macro panics are refuted to work."
  },
  {
   "property": "C65",
   "status": "proved",
   "theorems": [
    "C65_struct",
    "C65_names",
    "C65_compiles",
    "C65_numbers",
    "C65_arm",
    "C65_arm_names",
    "C65_arm_compiles",
    "C65_position_refuted",
    "C65_position_lost_refuted",
    "C65_reserved_refuted",
    "C65_fattr_refuted",
    "C65_tuple_refuted",
    "C65_unit_refuted",
    "C65_variable_refuted"
   ],
   "note": "GenDecode.v models the statements and the local variables of the generated code; the refuted theorems are the names and shapes the claim excepts."
  },
  {
   "property": "C66",
   "status": "proved",
   "theorems": [
    "C66_struct",
    "C66_byteorder",
    "C66_length",
    "C66_length_other",
    "C66_length_plain",
    "C66_text",
    "C66_parse_complete",
    "C66_refuted",
    "C66_length_refuted"
   ],
   "note": "That the encoder accepts every expression is false: C66_refuted, C66_length_refuted. C66_struct, C66_byteorder and C66_length say exactly for which expressions it holds and that the others never compile. GenExpr.v models the text the macros write and Rust's grammar of operators: all between two operands, * - ! in front, as, fields, parentheses. C70 covers enum variants."
  },
  {
   "property": "C67",
   "status": "proved",
   "theorems": [
    "C67_where",
    "C67_inside",
    "C67_what",
    "C67_unchecked",
    "C67_calls",
    "C67_encoding",
    "C67_pushes",
    "C67_text"
   ],
   "note": "Hand-written parts are asked to report errors in the same way (each_decoder, each_encoder). The text that InvalidValue carries (Display of the field's value) is arbitrary in C67_text."
  },
  {
   "property": "C68",
   "status": "proved",
   "theorems": [
    "C68_accepted",
    "C68_rejected",
    "C68_short",
    "C68_pieces",
    "C68_message",
    "C68_patient",
    "C68_lines_refuted",
    "C68_optional_refuted",
    "C68_unknown_tag_refuted"
   ],
   "note": "The class of schemas is `streamed` (StreamSpec.v); the refuted theorems show what goes wrong outside it. The receiver is a caller of jbytes::decode, not part of the crate."
  },
  {
   "property": "C69",
   "status": "proved",
   "theorems": [
    "C69_struct",
    "C69_unit",
    "C69_names",
    "C69_compiles",
    "C69_round_trip",
    "C69_arm",
    "C69_enum",
    "C69_arm_compiles",
    "C69_reserved_refuted",
    "C69_tuple_refuted",
    "C69_arm_reserved_refuted",
    "C69_arm_tag_refuted",
    "C69_from_str_refuted",
    "C69_rewritten_refuted"
   ],
   "note": "What rustc checks is modelled as far as names, references and kinds of local variables go; expressions in attributes are taken to compile."
  },
  {
   "property": "C70",
   "status": "proved",
   "theorems": [
    "C70_named",
    "C70_tuple",
    "C70_byteorder_refuted",
    "C70_named_refuted",
    "C70_tuple_refuted"
   ],
   "note": "In variants the fields are references; the macros write a star before the text for named fields, nothing for tuples. Which expressions compile is exact for expressions without casts. What users would expect (all of them) is false: C70_named_refuted, C70_tuple_refuted, C70_byteorder_refuted."
  },
  {
   "property": "C71",
   "status": "proved",
   "theorems": [
    "C71_read",
    "C71_write",
    "C71_io",
    "C71_decode",
    "C71_encode",
    "C71_encode_error",
    "C71_exchange",
    "C71_address",
    "C71_mut_usize_refuted",
    "C71_usize_refuted",
    "C71_usize_length_refuted",
    "C71_push_refuted",
    "C71_usize_read_refuted",
    "C71_prefix_refuted",
    "C71_tag_refuted",
    "C71_bits_refuted",
    "C71_offset_refuted",
    "C71_seek_refuted",
    "C71_address_refuted",
    "C71_mut",
    "C71_slice",
    "C71_cursor",
    "C71_mut_write",
    "C71_take_uint_refuted",
    "C71_take_int_refuted",
    "C71_cursor_refuted"
   ],
   "note": "Models of the code for both widths of usize side by side. Expressions in attributes are evaluated without overflow of their own. Encoding is stated for schemas without NetAddress whose bit fields follow the word they belong to. The refuted theorems show what differs outside the class."
  },
  {
   "property": "C72",
   "status": "proved",
   "theorems": [
    "C72_ethernet",
    "C72_ipv4",
    "C72_tcp",
    "C72_frame",
    "C72_http",
    "C72_http_map",
    "C72_http_method",
    "C72_socket",
    "C72_command",
    "C72_ethernet_any",
    "C72_ipv4_any",
    "C72_tcp_any",
    "C72_frame_any",
    "C72_http_any",
    "C72_http_method_any",
    "C72_socket_any",
    "C72_command_any",
    "C72_short_header_refuted",
    "C72_body_refuted",
    "C72_many_fields_refuted"
   ],
   "note": "The converse for IPv4 and TCP is stated with the lengths the example accepts: a header length below 20 wraps around (C72_short_header_refuted). For HTTP there is no converse: the header fields have no end (C72_body_refuted, C72_many_fields_refuted)."
  },
  {
   "property": "C73",
   "status": "proved",
   "theorems": [
    "C73_call",
    "C73_program",
    "C73_program_moving",
    "C73_decode",
    "C73_decode_offset",
    "C73_hand_written",
    "C73_bytes",
    "C73_forward",
    "C73_off",
    "C73_cursor",
    "C73_slice"
   ],
   "note": "Implementors of BufRead that replace provided methods are not covered; of BufReadMut they may replace remaining and take_bytes. Hand-written decoders are assumed to do on the source what they do on Bytes; C73_hand_written shows this for functions that use the calls of the trait."
  },
  {
   "property": "C74",
   "status": "proved",
   "theorems": [
    "C74_encode",
    "C74_bytes",
    "C74_fits",
    "C74_hand_written",
    "C74_buffer",
    "C74_place",
    "C74_fixed",
    "C74_bits_refuted"
   ],
   "note": "Where encoding to a new Buffer panics, or itself gives PushFail, nothing is said. A bit field with no word before it in its struct is merged into whatever lies before the position (C74_bits_refuted shows why grouped is asked). Hand-written encoders are assumed to do to the type what they do to a Buffer; C74_hand_written shows this for functions that push and use ?."
  },
  {
   "property": "C75",
   "status": "proved",
   "theorems": [
    "C75_call",
    "C75_history",
    "C75_determined"
   ],
   "note": "Seek returns the position before the move (C16)."
  },
  {
   "property": "C76",
   "status": "proved",
   "theorems": [
    "C76_numbers",
    "C76_orders",
    "C76_decoder",
    "C76_round_trip"
   ],
   "note": "Composes C50, C63, C65, C66 and C69; expressions in if_expr, check_value, value_* and with_args stay abstract, variable_name is left out, and so are containers with codecs (with, with_encode, with_decode) or variables (get_variable_name) of their own. Expressions outside the class do not compile in the encoder (C66_refuted)."
  },
  {
   "property": "C77",
   "status": "proved",
   "theorems": [
    "C77_decoder",
    "C77_encoder",
    "C77_round_trip",
    "C77_no_variants",
    "C77_misfit_refuted"
   ],
   "note": "Composes C50, C63, C64, C65, C69 and C70. Left out: expressions on the variant itself (an enum has no self.x), from_str and value_encode on fields of variants (C69), variable_name, containers with codecs or variables of their own. Enums with both branch_starts_with and branch_starts_with_untake: C63_both_refuted."
  },
  {
   "property": "C78",
   "status": "proved",
   "theorems": [
    "C78_read",
    "C78_write",
    "C78_portable",
    "C78_read_mut",
    "C78_write_mut",
    "C78_decode",
    "C78_encode",
    "C78_exchange",
    "C78_native_refuted"
   ],
   "note": "Models for both orders of bytes in memory side by side. Functions given by the user are taken to be the same on both. A value pushed in the machine's own order does not travel (refuted)."
  },
  {
   "property": "C79",
   "status": "proved",
   "theorems": [
    "C79_expressions",
    "C79_decoder",
    "C79_members",
    "C79_round_trip",
    "C79_number_refuted",
    "C79_name_refuted"
   ],
   "note": "The refuted theorems show the two ways in which an expression goes wrong: v0 does not compile in the encoder, and 0 + 1 means the first field, plus one, there."
  },
  {
   "property": "C80",
   "status": "proved",
   "theorems": [
    "C80_ends",
    "C80_hangs",
    "C80_why",
    "C80_forward",
    "C80_stops",
    "C80_seek_back_refuted"
   ],
   "note": "The loop is stated as a relation without any bound on rounds (LoopSpec.v); the decoder's cut-off after one round more than there are bytes is shown to be exact. C80_seek_back_refuted is the input of two bytes on which decoding never ends."
  },
  {
   "property": "C81",
   "status": "proved",
   "theorems": [
    "C81_alone",
    "C81_clone",
    "C81_view",
    "C81_new",
    "C81_equal",
    "C81_usable",
    "C81_over",
    "C81_shared"
   ],
   "note": "Memory is modelled with addresses of vectors and cells (Objects.v). The borrow rules of Rust enter in one place: a call with &mut self on a buffer ends the life of its views."
  },
  {
   "property": "C82",
   "status": "proved",
   "theorems": [
    "C82_struct",
    "C82_none",
    "C82_variant",
    "C82_tuple",
    "C82_refuted",
    "C82_empty_refuted",
    "C82_tuple_refuted"
   ],
   "note": "What users would expect (every list means the same in both) is false: C82_refuted (two fields), C82_empty_refuted (with_args = \"\"), C82_tuple_refuted (0 is the number in the decoder and the first field in the encoder)."
  },
  {
   "property": "C83",
   "status": "proved",
   "theorems": [
    "C83_condition",
    "C83_new_value",
    "C83_check",
    "C83_check_first",
    "C83_check_cases",
    "C83_struct",
    "C83_variant",
    "C83_scale",
    "C83_shift",
    "C83_offset",
    "C83_field",
    "C83_check_comparison_refuted",
    "C83_check_refuted",
    "C83_other_field_refuted",
    "C83_compare_refuted",
    "C83_left_behind_refuted",
    "C83_length_refuted",
    "C83_variant_length_refuted",
    "C83_variant_number_refuted"
   ],
   "note": "What users would expect of all texts is false outside the cases named: a comparison as check_value never compiles and && or || make it compare only the first operand; a field that value_encode has changed leaves a variable behind which later texts see instead of the field. C83_check_cases: every text is of one of these kinds."
  },
  {
   "property": "C84",
   "status": "proved",
   "theorems": [
    "C84_variables",
    "C84_numbers",
    "C84_decoder",
    "C84_nested",
    "C84_relay_refuted",
    "C84_space_refuted",
    "C84_space_asked_refuted"
   ],
   "note": "Decoders of structs with named fields; the encoder hands on nothing (C37_encode_refuted). hands (VarSourceSpec.v) says what is under a name. The refuted theorems are the exceptions named in the claim."
  },
  {
   "property": "C85",
   "status": "proved",
   "theorems": [
    "C85_decoder",
    "C85_nested",
    "C84_variables",
    "C84_numbers"
   ],
   "note": "enum_asks (VarSourceSpec.v) is enum_says of C77 with the variables in scope; C84_numbers says what an expression is then."
  },
  {
   "property": "C86",
   "status": "proved",
   "theorems": [
    "C86_encoder",
    "C86_handed",
    "C86_round_trip",
    "C86_integer_refuted"
   ],
   "note": "asking_writable (VarEncodeSpec.v) says which expressions the encoder takes; C66_length and C66_length_other that it takes no others. in_scope with no fields is the scope in which every variable is 0; C86_handed is for callers that hand on others. The refuted theorem is the exception named in the claim."
  },
  {
   "property": "C87",
   "status": "proved",
   "theorems": [
    "C87_encoder",
    "C87_handed",
    "C87_round_trip",
    "C87_length",
    "C87_sum_refuted"
   ],
   "note": "asking_variant_writable (VarEncodeSpec.v) says which expressions the encoder takes; C87_length, that it takes no other length. C87_message_case is the crate's own test, a struct with such an enum and such a struct in it. The refuted theorem is the exception named in the claim."
  },
  {
   "property": "C88",
   "status": "proved",
   "theorems": [
    "C88_decoder",
    "C88_numbers",
    "C88_encoder",
    "C88_handed",
    "C88_round_trip",
    "C88_relay_refuted",
    "C88_shadow_refuted"
   ],
   "note": "tuple_hands (VarTupleSpec.v) is what the text says, tuple_asking_writable what the encoder can do. C88_numbers is the claim about values. The two refuted theorems are the exceptions named in the claim."
  },
  {
   "property": "C89",
   "status": "proved",
   "theorems": [
    "C89_decoder",
    "C89_encoder",
    "C89_derived",
    "C89_type",
    "C89_missing",
    "C89_only_encoder",
    "C89_only_decoder",
    "C89_enum_refuted"
   ],
   "note": "decodes_with and encodes_with (OwnCodecSpec.v) say which function is meant. C89_enum_refuted is the exception named in the claim. C89_type links to C51, where such types are composed."
  },
  {
   "property": "C90",
   "status": "proved",
   "theorems": [
    "C90_exact",
    "C90_checked",
    "C90_unchecked",
    "C90_wraps",
    "C90_number",
    "C90_encoder",
    "C90_field",
    "C90_decoder",
    "C90_negative_refuted"
   ],
   "note": "value, has_type, sum_of and wraps_to (MachineSpec.v) say what an expression stands for; C90_negative_refuted states the wrong length in the claim's last sentence for every unsigned type up to 64 bits and every number, and the panic with checks. Conditions are C91."
  },
  {
   "property": "C91",
   "status": "proved",
   "theorems": [
    "C91_exact",
    "C91_checked",
    "C91_unchecked",
    "C91_field",
    "C91_guard",
    "C91_wrapped_refuted"
   ],
   "note": "decides and is_condition (MachineSpec.v) say when a condition holds; C91_wrapped_refuted states the last sentence through a derived decoder, for every unsigned type and every number."
  },
  {
   "property": "C92",
   "status": "proved",
   "theorems": [
    "C92_round_trip",
    "C92_text"
   ],
   "note": "MachineEncodeSpec.v says which attributes calculate. Expressions that divide must have a value for the fields at hand; builds with overflow checks are in C90."
  },
  {
   "property": "C93",
   "status": "proved",
   "theorems": [
    "C93_same",
    "C93_plain",
    "C93_exact",
    "C93_text"
   ],
   "note": "MachineBuild.v: expressions in value_decode, check_value and with_args are taken not to panic. C93_exact is for lines of attributes whose entries do not set the same thing twice."
  },
  {
   "property": "C94",
   "status": "proved",
   "theorems": [
    "C94_same",
    "C94_plain",
    "C94_exact",
    "C94_round_trip",
    "C94_text"
   ],
   "note": "MachineBuildEncode.v: expressions in value_encode and with_args are taken not to panic. C94_exact and C94_round_trip are for lines of attributes whose entries do not set the same thing twice."
  },
  {
   "property": "C95",
   "status": "proved",
   "theorems": [
    "C95_typed",
    "C95_exact",
    "C95_compiles",
    "C95_one",
    "C95_zero"
   ],
   "note": "The compiler is rustc, whose rules for integers MachineExpr.v models (operand types, out-of-range literals, literal zero divisors); MachineTypedSpec.v and MachineSpec.v state them as typing rules. C95_exact is for expressions without division; MachineTypedSpec.v (left_out) lists those about which the rules say nothing although rustc may accept them: operations on numbers alone, casts of conditions, casts to other types than integers. Typing only: a as t < b, which rustc does not parse, is read as (a as t) < b."
  },
  {
   "property": "C96",
   "status": "proved",
   "theorems": [
    "C96_counts",
    "C96_number",
    "C96_condition",
    "C96_field",
    "C96_times",
    "C96_text"
   ],
   "note": "By reduction to C90 and C91, which have no casts of conditions. Whether such a cast compiles is not covered by C95."
  },
  {
   "property": "C97",
   "status": "proved",
   "theorems": [
    "C97_v4",
    "C97_v6",
    "C97_mac",
    "C97_shown"
   ],
   "note": "The parser of core::net is not in the repository and is modelled after the standard library (IpText.v); the grammar it is compared with is stated in IpSpec.v. Numbers are C47_number."
  }
 ]
}