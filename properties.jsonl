{"id": "C01", "title": "Fixed-width integer reads", "statement": "take_{u8,u16,u24,u32,u64,usize,u128,i8..i128,f32,f64} in big-endian and little-endian form: if at least `size` bytes remain, the call returns exactly the number those next `size` bytes denote in positional base-256 notation for that byte order (two's complement for signed types, the bit pattern for floats) and moves the position forward by exactly `size`; if fewer remain it returns an InvalidByteLength error carrying the position and nothing moves. The variant without `be`/`le` in the name is the big-endian one.", "quantifier": "all byte contents, all positions, all widths and signs, both byte orders", "why_tests_cant": "2^128 bit patterns per width and every position/length combination; unit tests pick a few literals", "anchors": ["src/buf_traits.rs: BufRead::take_be_u16..take_le_i128, take_byteorder_*, take_u24"]}
{"id": "C02", "title": "Integer push/take round trip", "statement": "For every integer type, every value of that type and every byte order, pushing the value and then reading it back from where it was written with the same type and byte order returns the same value, and the pushed bytes are exactly `size` long.", "quantifier": "all integer types, all representable values, both byte orders, all buffers and positions", "why_tests_cant": "the value space is up to 2^128 and the buffer state is unbounded", "anchors": ["src/buf_traits.rs: BufWrite::push_be_u16..push_le_i128, push_byteorder_*; BufRead::take_*"]}
{"id": "C03", "title": "Variable-width unsigned integers", "statement": "For n<=8, push_uint(v,n)/push_be_uint/push_le_uint write exactly the low n bytes of v in the chosen order (so v mod 256^n survives) and take_uint(n) of the same order reads that number back; for n>8 pushing is rejected with an error and no effect, and a big-endian take is rejected with an error and no effect.", "quantifier": "all n, all u64 values, both orders, all buffer states", "why_tests_cant": "n and v are unbounded combinations; the failure branch needs every n>8", "anchors": ["src/buf_traits.rs: take_be_uint, take_le_uint, push_be_uint, push_le_uint"]}
{"id": "C04", "title": "untake never moves and agrees with take", "statement": "Every untake_* call returns exactly what the corresponding take_* call would return from the same state and leaves position and data unchanged.", "quantifier": "all reader states and all untake operations with all arguments", "why_tests_cant": "holds per state for unboundedly many states and ~60 operations", "anchors": ["src/buf_traits.rs: untake_*"]}
{"id": "C05", "title": "Reading stays in bounds", "statement": "Starting with the position inside the data, after any sequence of reading calls (take/untake/find/take_bytes_starts with any arguments, except the little-endian variable-width reads with n>8) the position is still inside the data, it never decreased, the data is unchanged and no call panicked.", "quantifier": "all finite histories of read operations with arbitrary arguments on arbitrary data", "why_tests_cant": "an invariant over unbounded operation histories", "anchors": ["src/buf_traits.rs: BufRead", "src/bytes.rs: Bytes"]}
{"id": "C06", "title": "Failed primitive reads do not consume", "statement": "A take_*, find_subsequence* or take_bytes_starts call that returns an error leaves the position where it was, and the error carries that position.", "quantifier": "all primitive read operations, all states with the position inside the data", "why_tests_cant": "requires every failing state of every operation", "anchors": ["src/buf_traits.rs: BufRead::take_bytes, take_bytes_starts, find_subsequence*"]}
{"id": "C07", "title": "Consecutive takes partition the input", "statement": "Any sequence of successful take_bytes calls returns consecutive slices: their concatenation is exactly the data between the initial and the final position.", "quantifier": "all inputs and all sequences of lengths", "why_tests_cant": "unbounded sequences", "anchors": ["src/buf_traits.rs: BufRead::take_bytes"]}
{"id": "C08", "title": "find_subsequence returns the text before the leftmost match", "statement": "find_subsequence(needle) succeeds iff the needle occurs in the remaining data; it then returns the bytes before the leftmost occurrence and leaves the position just after that occurrence; otherwise it fails without moving.", "quantifier": "all remaining data, all needles (including empty and self-overlapping ones)", "why_tests_cant": "leftmost is a statement about all earlier offsets of all haystacks", "anchors": ["src/buf_traits.rs: find_subsequence"]}
{"id": "C09", "title": "find_subsequence_needle includes or excludes the needle", "statement": "find_subsequence_needle(needle, true) returns the bytes up to and including the leftmost occurrence and moves just past them; with false it returns the bytes before it and stops in front of the needle.", "quantifier": "all remaining data, needles and flags", "why_tests_cant": "as C08", "anchors": ["src/buf_traits.rs: find_subsequence_needle"]}
{"id": "C10", "title": "find_subsequences picks the match that ends first", "statement": "find_subsequences(needles) succeeds iff some needle occurs in the remaining data; it then cuts at a match of one of the needles whose end is minimal over all needles and offsets and, among those, the longest; it returns the bytes before that match and moves to its end.", "quantifier": "all data and all finite needle sets", "why_tests_cant": "minimality over all offsets and needles", "anchors": ["src/buf_traits.rs: find_subsequences, find_subsequences_needle"]}
{"id": "C11", "title": "take_bytes_starts consumes exactly a literal prefix", "statement": "take_bytes_starts(m) succeeds and advances by len(m) iff the remaining data begins with m; it fails without moving with InvalidByteLength if fewer than len(m) bytes remain and with Fail if they differ.", "quantifier": "all data, positions and markers", "why_tests_cant": "all byte strings", "anchors": ["src/buf_traits.rs: take_bytes_starts"]}
{"id": "C12", "title": "push overwrites in place and extends only at the end", "statement": "push(bs) at position p inside the buffer: afterwards bytes before p are unchanged, bytes p..p+len are bs, bytes after p+len are unchanged, the length is max(old, p+len), the position is p+len and the return value is len(bs). If p is past the end, the gap is filled with zeros.", "quantifier": "all buffers, positions and pushed data", "why_tests_cant": "frame property over every index of every buffer", "anchors": ["src/buf_traits.rs: BufWrite::push", "src/buffer.rs: Buffer::resize, remaining_mut"]}
{"id": "C13", "title": "A buffer filled by pushes is the concatenation of what was pushed", "statement": "After any sequence of push operations on a new Buffer, the buffer's content is the concatenation of the byte images of the pushes in order, its position equals its length, and each call returned the length of its image.", "quantifier": "all finite push histories", "why_tests_cant": "unbounded histories", "anchors": ["src/buf_traits.rs: BufWrite push_*", "src/buffer.rs: Buffer::new"]}
{"id": "C14", "title": "Failed pushes have no effect", "statement": "Every push operation that returns an error leaves the buffer's data and position unchanged, and the only push operations that can fail are the variable-width ones with n>8.", "quantifier": "all buffers inside the address-space limit and all push operations", "why_tests_cant": "all states", "anchors": ["src/buf_traits.rs: push_be_uint, push_le_uint, push"]}
{"id": "C15", "title": "Buffer behaves as an in-memory file for Read and Write", "statement": "std::io::Read and Write on Buffer behave as on an in-memory file: read copies min(len, available) bytes from the position and advances; write overwrites at the position, extends with zeros if the position is past the end, and advances; for every interleaving of read/write/seek the contents and position match the abstract file.", "quantifier": "all histories of read/write/seek with arbitrary arguments", "why_tests_cant": "refinement over unbounded interleavings", "anchors": ["src/buffer.rs: impl Read/Write/Seek for Buffer"]}
{"id": "C16", "title": "Buffer::seek moves like std's Seek and reports the new position", "statement": "seek(Start/End/Current) moves the position to the requested offset if it is non-negative, otherwise fails with InvalidInput and does not move; on success the returned offset is the new position from the start, as std::io::Seek documents.", "quantifier": "all positions, lengths and offsets", "why_tests_cant": "needs all offsets; the returned value must equal the new position in every state", "anchors": ["src/buffer.rs: Seek::seek"]}
{"id": "C17", "title": "Byte order resolution", "statement": "The byte order used for any field is the field's own byteorder if given, else the one of the container that directly encloses it, else big-endian; encode and decode resolve it identically.", "quantifier": "all combinations of field/container modifiers", "why_tests_cant": "combination of modifiers for every type", "anchors": ["src/modifiers.rs: get_byteorder"]}
{"id": "C18", "title": "Integer fields with a length modifier", "statement": "Decoding an integer with length=l (l <= size, l<=8) consumes exactly l bytes and yields their unsigned value (in the type's range by wrapping); encoding writes the low l bytes; the round trip is exact for values below 256^l and for no negative value with l<size; l>size is rejected by both directions without effect.", "quantifier": "all integer types, all l, all values, both byte orders", "why_tests_cant": "full value space; negative results are universally quantified too", "anchors": ["src/decode/impls_int.rs", "src/encode/impls_int.rs"]}
{"id": "C19", "title": "Bit fields partition their word", "statement": "For a group of bit-field integers of one unsigned type sharing one word, whose masks are contiguous, non-zero and pairwise disjoint and whose values fit their masks: encoding writes one word in which each mask's bits hold its value, and decoding that word gives every field back; decoding any word gives each field the bits under its mask shifted to the right.", "quantifier": "all words, all mask partitions, all fitting values, all widths", "why_tests_cant": "2^64 words times all mask partitions", "anchors": ["src/decode/impls_int.rs bits", "src/encode/impls_int.rs bits, bits_start", "derive/src/jbytes/decode.rs untake"]}
{"id": "C20", "title": "Byte string framings", "statement": "For &[u8], String, &str, HexString and HexBytes under every framing modifier (default u8 prefix, length, byte_count, linend, linend_value, remaining, with optional key and split prefixes): if the value meets the framing's stated condition (fits the prefix / has the length / contains no earlier terminator / key occurs first), decode(encode(v)) = v and exactly the encoded bytes are consumed.", "quantifier": "all byte strings, all framing modifiers, all byte orders, all trailing data", "why_tests_cant": "all strings, including those containing partial terminators", "anchors": ["src/decode/impls_bytes.rs: find_subsequence", "src/encode/impls_bytes.rs: encode_inner"]}
{"id": "C21", "title": "Decoded strings are valid UTF-8", "statement": "Every String/&str a decode returns is well-formed UTF-8 (no surrogates, no overlong forms, at most U+10FFFF), and the only additional rejection over the raw byte framing is ill-formed UTF-8.", "quantifier": "all inputs and modifiers", "why_tests_cant": "all byte strings", "anchors": ["src/decode/impls_string.rs"]}
{"id": "C22", "title": "Collections with a declared count", "statement": "Vec<T> decoding with the default u8 prefix, byte_count_outside or count=n decodes exactly that many elements one after the other or fails; encoding writes the count in that form followed by the elements in order; the round trip is exact when the count fits its prefix.", "quantifier": "all element types, counts, contents", "why_tests_cant": "unbounded collections of arbitrary nested types", "anchors": ["src/decode/impls_vec.rs", "src/encode/impls_vec.rs", "src/decode/mod.rs: get_count_and_try_count", "src/encode/mod.rs: push_count_and_try_count"]}
{"id": "C23", "title": "try_count decodes a maximal prefix and never fails", "statement": "Decoding Vec<T> with try_count=n never returns an error; the result is the longest prefix, of at most n elements, of successful element decodes.", "quantifier": "all inputs, n and element types", "why_tests_cant": "all inputs incl. truncated ones", "anchors": ["src/decode/impls_vec.rs try_count"]}
{"id": "C24", "title": "Option decoding", "statement": "Option<T> decode never returns an error: it is Some(v) iff T decodes to v from this position (and length is not 0), else None; encode of None writes nothing and of Some(v) writes v.", "quantifier": "all T, inputs, modifiers", "why_tests_cant": "all inputs", "anchors": ["src/decode/impls_option.rs", "src/encode/impls_option.rs"]}
{"id": "C25", "title": "HashMap round trip is independent of iteration order", "statement": "For every map and every order in which the hasher enumerates it, encoding in that order and decoding gives the same map (as a finite map); on duplicate keys in the input the last value wins.", "quantifier": "all maps with encodable keys/values, all iteration orders", "why_tests_cant": "iteration order is randomised per process", "anchors": ["src/decode/impls_hashmap.rs", "src/encode/impls_hashmap.rs"]}
{"id": "C26", "title": "Tuples and arrays are element sequences", "statement": "Tuples of up to 9 elements and [T; N] encode to the concatenation of their elements' encodings and decode element by element with no separators; arrays decode exactly N elements or fail.", "quantifier": "all element types and values", "why_tests_cant": "arbitrary nesting", "anchors": ["src/decode/impls_tuple.rs", "src/decode/impls_array.rs", "src/encode/impls_tuple.rs", "src/encode/impls_array.rs"]}
{"id": "C27", "title": "Address codecs", "statement": "MacAddress, Ipv4Addr, Ipv6Addr occupy exactly 6, 4, 16 bytes, octets in network order for big-endian and reversed for little-endian, and round trip for every address and byte order; IpAddr/NetAddress round trip when length equals the variant's size and fail when the length is missing or 0.", "quantifier": "all addresses, both byte orders", "why_tests_cant": "2^128 addresses", "anchors": ["src/decode/impls_macaddress.rs", "src/decode/impls_ipaddress.rs", "src/decode/impls_netaddress.rs", "src/types/mac_address.rs"]}
{"id": "C28", "title": "MacAddress text form", "statement": "Displaying a MacAddress and parsing the result gives the same address for every address; parse accepts only strings made of six two-digit hexadecimal groups separated by ':'.", "quantifier": "all addresses / all strings", "why_tests_cant": "2^48 addresses; all strings", "anchors": ["src/types/mac_address.rs: FromStr, Display"]}
{"id": "C29", "title": "Hex text form", "statement": "For all bytes, parsing to_hex_lowercase or to_hex_uppercase gives the bytes back; FromStr accepts exactly the even-length strings of hex digits.", "quantifier": "all byte strings / all strings", "why_tests_cant": "all strings", "anchors": ["src/types/hex_string.rs", "src/types/hex_bytes.rs"]}
{"id": "C30", "title": "Whole-value round trip for derived types", "statement": "For every well-formed derived schema (nested structs, enums, collections, options under if_expr, strings, addresses, integers, bit fields, with field modifiers that may refer to earlier fields) and every value that satisfies the schema's stated encodability conditions, encode succeeds and decode of the produced bytes, followed by any trailing data, returns an equal value and consumes exactly the produced bytes.", "quantifier": "all schemas in the modelled language, all encodable values, all trailing data", "why_tests_cant": "schemas nest without bound; induction over the schema is required", "anchors": ["derive/src/jbytes/derive_struct.rs", "derive/src/jbytes/derive_enum.rs", "src/lib.rs: decode, encode"]}
{"id": "C31", "title": "Enum tags identify variants", "statement": "For derived enums whose arms are pairwise disjoint, encoding variant i writes a tag for which decode selects variant i; a tag matched by no arm gives an error (or the default variant if declared).", "quantifier": "all enum declarations and tags", "why_tests_cant": "all tag values and declaration shapes", "anchors": ["derive/src/jbytes/derive_enum.rs"]}
{"id": "C32", "title": "encode returns the number of bytes it wrote", "statement": "For every schema without offset padding and bit-field groups and every value, the usize returned by a successful encode equals the number of bytes by which the position advanced, and earlier content is untouched.", "quantifier": "all schemas, values and buffers", "why_tests_cant": "induction over schemas", "anchors": ["src/encode/*.rs", "derive/src/jbytes/encode.rs"]}
{"id": "C33", "title": "Truncated encodings are rejected", "statement": "For self-delimiting schemas (no remaining/Option/try_count/loop_skip_starts) decoding any strict prefix of a valid encoding returns an error, never a wrong value or panic.", "quantifier": "all schemas, values and cut points", "why_tests_cant": "all cut points of all encodings", "anchors": ["src/lib.rs: decode", "derive/src/jbytes/decode.rs"]}
{"id": "C34", "title": "Decoding untrusted input never panics", "statement": "For every schema without offset, input-dependent byteorder, little-endian lengths above 8 bytes and empty loop markers, decode of every input terminates with Ok or Err: no panic, no hang, and the position ends inside the data.", "quantifier": "all schemas in the class and all inputs", "why_tests_cant": "all inputs", "anchors": ["src/decode/*.rs", "derive/src/jbytes/decode.rs"]}
{"id": "C35", "title": "Decoding only looks at what it consumes", "statement": "For self-delimiting schemas, if decode succeeds consuming k bytes then it gives the same value and consumption for every input that agrees on those k bytes; bytes before the start position never matter apart from the positions reported.", "quantifier": "all schemas, inputs and extensions", "why_tests_cant": "relational (two-run) property", "anchors": ["src/decode/*.rs"]}
{"id": "C36", "title": "Field modifiers apply only to the field they are written on", "statement": "A modifier written on one field of a derived struct or enum variant does not influence how another field is encoded or decoded.", "quantifier": "all derived types", "why_tests_cant": "relational property over schemas", "anchors": ["derive/src/jbytes/derive_enum.rs: generate_encode_body", "derive/src/jbytes/derive_struct.rs"]}
{"id": "C37", "title": "Variables passed to nested structs", "statement": "A value published with variable_name is seen by nested containers that ask for it with get_variable_name, in both encode and decode, so lengths depending on it round trip.", "quantifier": "all parents/children and values", "why_tests_cant": "all values of the variable", "anchors": ["derive/src/jbytes/decode.rs: variable_name", "derive/src/jbytes/encode.rs", "src/modifiers.rs: variable_name"]}
{"id": "C38", "title": "Slice reader agrees with Bytes", "statement": "Reading through BufReadMut on &[u8] returns the same values as reading through Bytes on the same data, for all histories of take operations; the slice always equals the remaining data.", "quantifier": "all histories of BufReadMut operations", "why_tests_cant": "simulation over unbounded histories", "anchors": ["src/impls.rs: BufReadMut for &[u8]", "src/buf_mut_traits.rs"]}
{"id": "C39", "title": "io::Cursor reader agrees with Bytes", "statement": "BufReadMut on std::io::Cursor returns the same results and positions as Bytes for all histories of take and find operations.", "quantifier": "all histories", "why_tests_cant": "simulation over unbounded histories", "anchors": ["src/impls.rs: BufReadMut for Cursor", "src/buf_mut_traits.rs"]}
{"id": "C40", "title": "Canonical decoding", "statement": "For canonical schemas (integers, byte strings with length or sufficient prefix, arrays, tuples, counted Vecs, addresses, structs of these), if decode succeeds then encoding the value reproduces exactly the consumed bytes.", "quantifier": "all inputs and all canonical schemas", "why_tests_cant": "all accepted inputs", "anchors": ["src/decode/*.rs", "src/encode/*.rs"]}
{"id": "C41", "title": "Decoded size is bounded by the input", "statement": "For every schema whose collection elements each consume at least one byte, the elements of all vectors, sets and maps and the bytes of all strings in a decoded value, counted at every nesting level, are together at most the nesting depth times the number of input bytes consumed, whatever counts and lengths the input declares.", "quantifier": "all inputs, in particular adversarial counts", "why_tests_cant": "adversarial counts up to 2^64", "anchors": ["src/decode/impls_vec.rs", "src/decode/impls_hashmap.rs"]}
{"id": "C42", "title": "Check values are enforced", "statement": "If a field carries check_value, a successful decode of the struct has that field satisfying the check; a mismatch is reported as InvalidValue.", "quantifier": "all inputs and checks", "why_tests_cant": "all inputs", "anchors": ["derive/src/jbytes/decode.rs: check_value"]}
{"id": "C43", "title": "untake fields do not consume", "statement": "A field marked untake is decoded from the same bytes the next field starts at: on success the position after it equals the position before it.", "quantifier": "all inputs and field types", "why_tests_cant": "all inputs and field types", "anchors": ["derive/src/jbytes/decode.rs: untake"]}
{"id": "C44", "title": "Decoded values are values of the declared type", "statement": "Whatever bytes are decoded, a successful decode returns a value of the declared type: integers within their range, chars that are Unicode scalar values, well-formed strings, addresses of their size, arrays and tuples of their length, sets and maps without duplicate keys, enum variants with the right fields.", "quantifier": "all schemas, environments and inputs", "why_tests_cant": "all inputs; Rust's unsafe-free typing alone does not settle it in the model, and a from_utf8 or char::from_u32 left unchecked would break it", "anchors": ["src/decode/*.rs", "derive/src/jbytes/decode.rs"]}
{"id": "C45", "title": "Encoding a value of the type never panics and only writes at the position", "statement": "For every schema with byte orders that evaluate, no HashSet and no bit field that reads back a word, encoding any value of the type either succeeds or returns an error, and in both cases the only change to the buffer is that some bytes were written at the position and the position moved past them: an encode that fails half-way leaves everything before the position, and everything beyond what it wrote, unchanged. With bit fields that read back a word (in containers without 128-bit integers) it still succeeds or returns an error, and the buffer never gets shorter. In particular whatever was decoded can be encoded again without a panic.", "quantifier": "all schemas of the class, all values of their type, all buffers with room", "why_tests_cant": "all values and all failure points", "anchors": ["src/encode/*.rs", "derive/src/jbytes/encode.rs", "src/bytes.rs: BufWrite"]}
{"id": "C46", "title": "MacAddress as a number, and its kind", "statement": "to_bits is the big-endian number of the six octets; from_bits and to_bits are inverse for all addresses and all numbers below 2^48; an address is multicast exactly when the low bit of its first octet is set, unicast otherwise; it is broadcast only if all octets are ff and zero only if all are 00.", "quantifier": "all addresses and all 48-bit numbers", "why_tests_cant": "2^48 addresses", "anchors": ["src/types/mac_address.rs: to_bits, from_bits, is_unicast, is_multicast, is_broadcast, is_zero"]}
{"id": "C47", "title": "NetAddress text form", "statement": "Displaying a NetAddress and parsing the result gives the same address and the same kind for every address: the forms of the four kinds never collide. Text without ':' and '.' is accepted exactly when it is a decimal number below 2^64.", "quantifier": "all addresses / all strings", "why_tests_cant": "all addresses and strings", "anchors": ["src/types/net_address.rs: FromStr, Display"]}
{"id": "C48", "title": "Numbers written in attributes", "statement": "A numeric attribute value (length, count, offset, bits, ...) written as a decimal or 0x-hexadecimal numeral below 2^64, with or without quotes, means that number; a text beginning with neither a digit nor a plus sign is kept, character for character, as an expression evaluated at run time.", "quantifier": "all literals", "why_tests_cant": "all numerals and all texts: a test fixes a few", "anchors": ["derive/src/jbytes/parse.rs: parse_value_string, AttrValue::parse_usize"]}
{"id": "C49", "title": "Spellings of the byte order", "statement": "BE, > and 0 mean big endian, LE, < and 1 little endian; any other text is an expression evaluated at run time; the macro-generated unwrap of a constant order never panics.", "quantifier": "all literals", "why_tests_cant": "all texts", "anchors": ["derive/src/jbytes/parse.rs: AttrValue::parse_byteorder, to_byteorder", "src/byteorder.rs: ByteOrder::parse"]}
{"id": "C50", "title": "Attributes mean what they say", "statement": "On a field whose first jbytes attribute is #[jbytes(e1, e2, ...)], every entry sets exactly the modifier it names (under any of its names) to the value it names and leaves all others alone; entries that set different things can be written in any order; and compilation fails exactly when some entry has an unknown name.", "quantifier": "all lists of entries, of any length, and their permutations", "why_tests_cant": "all combinations and orders of 50 attribute names", "anchors": ["derive/src/jbytes/attribute.rs: FromAttribute for FieldAttributes, ContainerAttributes", "derive/src/jbytes/parse.rs"]}
{"id": "C51", "title": "Hand-written codecs compose with derived ones", "statement": "A field with with, with_decode or with_encode is decoded and encoded by exactly the functions named, which see the values of the earlier fields, the field's modifiers and the container's byte order, starting where the earlier fields ended. If the two functions keep to one byte format (the encoder writes the documented bytes of a value and the decoder reads them back in front of anything), then every struct containing such a field round trips.", "quantifier": "all pairs of functions that keep a format, all surrounding fields, values and following bytes", "why_tests_cant": "quantifies over user functions and every position in a container", "anchors": ["derive/src/jbytes/derive_struct.rs: with_decode, with_encode", "derive/src/jbytes/decode.rs, encode.rs: with, with_args", "tests/test_modifier_with*.rs"]}
{"id": "C52", "title": "Every reading call returns the next bytes as its name says", "statement": "Every take_ or untake_ call that reads n bytes (arrays, byte strings, bool, char, integers of every width and order, floats) returns, when n bytes remain, exactly those bytes interpreted as its name says, and moves past them (take) or stays (untake); otherwise it returns an InvalidByteLength error and stays. A bool is true exactly when the byte is not zero; an array read in little-endian order is reversed.", "quantifier": "all calls, widths up to the type's, orders, buffers and positions inside them", "why_tests_cant": "all buffer contents and positions for some fifty methods", "anchors": ["src/buf_traits.rs: BufRead"]}
{"id": "C53", "title": "Modifiers reach the codec of their field", "statement": "Whatever comes before it, a field's codec is run exactly where the earlier fields ended and is given exactly the modifiers written on the field, each evaluated on the values of the earlier fields and converted to usize, and the order and width of the directly enclosing container, and when decoding also the variables the earlier fields publish. A byteorder expression means big-endian if it evaluates to 0, little-endian if it evaluates to 1; any other value is a panic in both directions.", "quantifier": "all structs, fields, modifiers, expressions, inputs and values", "why_tests_cant": "expressions range over all values of earlier fields", "anchors": ["derive/src/jbytes/attribute.rs: FieldAttributes::to_code", "derive/src/jbytes/parse.rs: AttrValue::to_code, to_byteorder", "src/byteorder.rs: ByteOrder::parse_int", "derive/src/jbytes/derive_struct.rs"]}
{"id": "C54", "title": "The derived default value", "statement": "For a struct with #[derive(Jdefault)] the default value of each field is the expression in the last default or default_value entry of the field's first jbytes, jd or jppe attribute, quotes removed, and otherwise the default of the field's type; a default on a tuple struct gives its arguments. This holds for structs and enums nested to any depth. An entry of #[jd(..)] that is not about defaults is a compile error, while other attributes may hold anything.", "quantifier": "all declarations, attribute lists, literals, nesting depths", "why_tests_cant": "ranges over all declarations", "anchors": ["crates/jdefault-rs/src/derive_struct.rs: generate_struct_body, generate", "crates/jdefault-rs/src/attribute.rs", "crates/jdefault-rs/src/derive_enum.rs"]}
{"id": "C55", "title": "The default variant of an enum", "statement": "If #[derive(Jdefault)] on an enum compiles, the default value is the variant marked default, default_value, enum_default or branch_default, or given a default value; with none or with two such variants it does not compile.", "quantifier": "all enum declarations", "why_tests_cant": "ranges over all declarations", "anchors": ["crates/jdefault-rs/src/derive_enum.rs: generate", "crates/jdefault-rs/src/attribute.rs: FieldAttributes"]}
{"id": "C56", "title": "The writing traits over any implementor", "statement": "For every type that implements BufWrite or BufWriteMut and keeps the obvious promises (remaining_mut is the rest of the contents after the position, advance moves the position, resize(n) either makes room for n bytes or returns 0 and changes nothing), every push_ method writes exactly the bytes its name says at the position, moves past them and returns their number, or is refused in full with PushFail and no effect. Over any history the contents are the accepted pushes one after the other. Buffer keeps the promises.", "quantifier": "all implementors, states, calls and histories", "why_tests_cant": "ranges over all user implementations of the trait", "anchors": ["src/buf_mut_traits.rs: BufWriteMut", "src/buf_traits.rs: BufWrite", "src/buffer.rs: impl BufWrite for Buffer"]}
{"id": "C57", "title": "Messages in a row", "statement": "Values of any types encoded one after the other into one buffer are decoded back, in the same order, by decoding their types one after the other from its bytes, provided each can be told from what follows. No two values of a type share their bytes, and the bytes of one are never the beginning of those of another.", "quantifier": "all sequences of types and values, of any length, and everything that follows", "why_tests_cant": "ranges over all sequences and all pairs of values", "anchors": ["src/decode.rs: decode, decode_inner", "src/encode.rs: encode, encode_inner", "derive/src/jbytes/derive_struct.rs"]}
{"id": "C58", "title": "The unsafe blocks use only initialised memory", "statement": "Decoding an array never drops or reads memory that holds no value and never returns an array with a slot not written; the fixed-width number readers never read outside the slice that take_bytes or untake_bytes returned, for Bytes, Buffer, &[u8], io::Cursor and every other implementor of the reading traits.", "quantifier": "all element types, array lengths, inputs, positions, implementors", "why_tests_cant": "undefined behaviour is not observable by a test, and implementors are arbitrary", "anchors": ["src/decode/impls_array.rs: decode_inner", "src/buf_mut_traits.rs: macro_take_bytes, macro_untake_bytes"]}
{"id": "C59", "title": "Values survive serde", "statement": "With the serde feature, every MAC address, hex string and network address is serialized to a string of hexadecimal digits, colons and dots and deserialized from it to the same value; Hex bytes serialize to their hexadecimal digits.", "quantifier": "all values of the four types", "why_tests_cant": "ranges over all values", "anchors": ["src/types/mac_address.rs, hex_string.rs, hex_bytes.rs, net_address.rs: Serialize, Deserialize"]}
{"id": "C60", "title": "Derived getters of a struct return the field they name", "statement": "On a struct that derives Jget, a field marked get has a function get_<field>() that returns the field's value, and marked get_option one that returns Some of it (Some(Some(x)) or None for a field that is itself an Option). get/get_option = \"n: T\" gives get_n() with the value, or the value of the path n, converted to T; a vector of integers asked for with another integer type is cast element by element, a single integer becomes a vector of one; get_default gives functions that return None. No other function is generated, and the functions are called by the names written in the source.", "quantifier": "every struct declaration that derives Jget (any number of fields, types, attributes), every value of the fields, every conversion between types that meets the standard library's two blanket conversions", "why_tests_cant": "Which code is generated is decided from the text of names and types; tests try a handful of names and types, while the claim is about every name and type.", "anchors": ["crates/jget-rs/derive/src/jget/derive_struct.rs: get_function_name", "crates/jget-rs/derive/src/jget/derive_struct.rs: get_return_type_string", "crates/jget-rs/derive/src/jget/derive_struct.rs: get_code_string", "crates/jget-rs/derive/src/jget/derive_struct.rs: generate_struct_body", "crates/jget-rs/derive/src/jget/attribute.rs: parse_value_string_list"]}
{"id": "C61", "title": "Derived getters of an enum answer for the variant at hand", "statement": "On an enum that derives Jget, get_<n>() returns Some of the field n of the variant at hand if that variant has such a field marked get_option, and None for every other variant. With get_option = \"p: T\" on a tuple variant it returns Some of what p is of the value inside; with get = \"p: T\" on every variant it returns that itself.", "quantifier": "every enum declaration of these forms (any number of variants, fields, requests), every variant at hand and every value in it", "why_tests_cant": "The answer for one variant must not depend on the requests of the others, whatever their number and order; the generator collects them in hash maps.", "anchors": ["crates/jget-rs/derive/src/jget/derive_enum.rs: generate_crate_get_function", "crates/jget-rs/derive/src/jget/derive_struct.rs: generate_struct_body"]}
{"id": "C62", "title": "Overflow checks change no result", "statement": "A program built with integer overflow checks (a debug build) and one built without them get the same results from the library, except that the checked one may panic where the other goes on. They agree entirely on all reading calls, of Bytes, of &[u8] and of io::Cursor, on pushes and std::io reads, writes and flushes, on decoding of types without `offset`, and on encoding of types whose bit fields follow the word they belong to. They differ where `advance`, an `offset`, a bit field without its word or a relative seek leaves the range of its integer type: there the checked build panics.", "quantifier": "all histories of calls, data and positions; all schemas, values, modifiers, data and buffers, with arbitrary hand-written codecs", "why_tests_cant": "The repository's own tests are built with overflow checks off (profile.dev), the tests of a program using the crate are not; a difference shows only at extreme positions or with unusual attributes.", "anchors": ["Cargo.toml: profile.dev", "src/bytes.rs", "src/buffer.rs", "src/buf_traits.rs", "src/decode", "src/encode", "derive/src/jbytes"]}
{"id": "C63", "title": "Entries on a container mean what they say", "statement": "Of the attributes on a struct or enum, the first #[jbytes(..)] or #[repr(..)] line is read. In it the last entry about the byte order, about the width of the tag (byte_count = n, u8, u16, u32, u64, usize) and about branch_take_bytes decides, whatever comes between; byte_count_disable, branch_starts_with and branch_starts_with_untake hold if they occur anywhere. An entry that does not exist is refused with an error. Encoder and decoder of an enum agree about how a variant is announced.", "quantifier": "all lists of attribute lines before and after, all lists of entries in any order and number, all number and string literals", "why_tests_cant": "Entries can be combined in any number and order; each test writes one combination.", "anchors": ["derive/src/jbytes/attribute.rs: ContainerAttributes::parse", "derive/src/jbytes/derive_enum.rs: generate_decode, generate_encode", "derive/src/lib.rs"]}
{"id": "C64", "title": "The text on a variant gives it its number and its condition", "statement": "The number of a variant is its discriminant, else the end of its branch_range, else its branch_value if that is a number (decimal or 0x..), else one more than the number before. The generated decoder takes a variant for exactly the tags its branch_default, branch_bits, branch_value, branch_range or number describe; for a branch_value that is a byte string, for exactly these bytes. Under branch_starts_with it takes the first variant that is the default one or whose bytes lead the data, and the generated code is grammatical exactly if the first variant has a branch_value and the default variant comes last.", "quantifier": "all enum declarations (any number of variants, attribute lines, entries, numerals, ranges and byte strings) and all tags and data; rustc's reading of patterns is any that reads numbers and ranges rightly", "why_tests_cant": "The numbers depend on all variants before, and on the text of literals.", "anchors": ["derive/src/jbytes/derive_enum.rs: EnumVariantIterator, generate_byte_decode_body, generate_byte_decode_body2", "derive/src/jbytes/attribute.rs: FieldAttributes::parse"]}
{"id": "C65", "title": "Names of fields do not matter to a derived decoder", "statement": "The decoder derived for a struct or an enum variant gives the same values, the same errors and the same end position whatever its fields are called: two declarations that differ in the names of their fields only decode every input alike, if both compile. Names that differ from each other and from the five local variables of the generated code (input, cattr_new, cattr_new2, fattr_new, position) always compile. Exceptions: a usize field called position together with untake on it or on a later field.", "quantifier": "all structs and variants, all field names, attributes and types, all inputs and start positions", "why_tests_cant": "Names are an unbounded set; a clash needs a particular name next to a particular attribute.", "anchors": ["derive/src/jbytes/decode.rs: generate_decode_body, generate_decode_body2", "derive/src/jbytes/derive_struct.rs: generate_decode_struct_body, generate_decode_return, generate_byte_decode_body", "derive/src/jbytes/attribute.rs: ContainerAttributes::to_code, FieldAttributes::to_code"]}
{"id": "C66", "title": "An expression in an attribute means the same to the derived decoder and encoder", "statement": "If an attribute of a struct's field (length, count, byte_count, bits, branch, offset, byteorder) holds an expression that the derived decoder accepts and evaluates to v, and no variable in scope of the encoder has the name of a field (C83 says what happens otherwise), the derived encoder either evaluates it to v as well or fails to compile. It compiles exactly for expressions that begin with the name of a field and mention no other field, and for a length whose text occurs in get_variable_name, if it mentions no field; every other expression the decoder accepts (a + b, (a), 2 * a, a constant, a variable) makes the encoder fail to compile. No accepted expression silently gets another value.", "quantifier": "all expressions of numbers, names, field accesses, casts, arithmetic operators and parentheses, all structs and field values, all constants and variables in scope, all meanings of numbers, operators and casts", "why_tests_cant": "Expressions are an unbounded language; a test fixes one and, if the encoder does not compile, cannot exist.", "anchors": ["derive/src/jbytes/parse.rs: AttrValue::to_code, to_code2, to_byteorder", "derive/src/jbytes/attribute.rs: FieldAttributes::to_code", "derive/src/jbytes/derive_struct.rs: generate_byte_encode", "derive/src/jbytes/encode.rs: generate_encode_body2"]}
{"id": "C67", "title": "Errors say where and what", "statement": "When decoding fails, the position in the error is the position at which the input is left, which lies between the start and the end of the data; its kind is InvalidByteLength or Fail, or InvalidValue if some field has a check_value. When encoding fails, the position is the one at which the buffer is left, and the kind is InvalidByteLength or PushFail. Two different errors never have the same text.", "quantifier": "all schemas, values, buffers, input bytes and starting positions; for 'between the start and the end' schemas of C34; all pairs of errors for the text", "why_tests_cant": "Errors can come from any depth of a schema and any byte of the input; tests look at a few.", "anchors": ["src/errors.rs: Error, ErrorKind, Display", "src/buf_traits.rs: make_error calls", "src/decode/*.rs", "src/encode/*.rs", "derive/src/jbytes/decode.rs: check_value, unmatched variants"]}
{"id": "C68", "title": "A message that arrives in pieces", "statement": "A receiver decodes what has arrived so far, waits if the error is InvalidByteLength and stops otherwise. How the bytes are cut into pieces does not change its answer: a value once decoded and an error other than InvalidByteLength stay the same whatever follows, and a part of a message that will decode gives InvalidByteLength. So what one side encodes the other side receives after its last byte, in whatever pieces it comes. False for lines, keys, literals, loops, try_count, remaining and Option, where the end of the data decides; a receiver that waits after every error gets messages with lines and literals too. An unknown tag is reported as InvalidByteLength, so the receiver waits for ever.", "quantifier": "all schemas of the class, all values, all byte strings, all ways of cutting them up", "why_tests_cant": "The number of ways to cut a stream is exponential in its length, and streams are unbounded.", "anchors": ["src/lib.rs: decode", "src/buf_traits.rs: take_bytes", "src/decode/*.rs", "derive/src/jbytes/derive_enum.rs: unmatched variants"]}
{"id": "C69", "title": "Derived encoders do not depend on field names", "statement": "Whenever the encoder that the derive macros generate for a struct compiles, its statements write the fields in order as their attributes and types say and return the same number, whatever the fields are called; the same for enums, arm by arm, tag included, as long as no expression mentions a field with value_encode. A generated encoder and a generated decoder for one declaration are inverse where the types are. Every struct has an encoder unless a field with value_encode has a name of the generated code or belongs to a tuple struct. In variants no written field may be called buffer, r_nbytes, cattr_new or fattr_new (with a numeric tag also cattr, fattr, cr_byte_count), and none may have from_str: those encoders do not compile. In a variant, an expression that mentions a field with value_encode sees what is written, in a struct what the field holds.", "quantifier": "all struct and variant declarations with any names, attributes and field types, all values, all buffers", "why_tests_cant": "Clashes of names depend on the names users choose; no test suite has them all.", "anchors": ["derive/src/jbytes/encode.rs: generate_encode_body, generate_encode_body2", "derive/src/jbytes/derive_struct.rs: generate_byte_encode", "derive/src/jbytes/derive_enum.rs: generate_byte_encode_body"]}
{"id": "C70", "title": "Expressions in attributes of variants", "statement": "An expression in an attribute of a variant's field, such as length = \"a + b * 2\", that the decoder can evaluate has the same value in the encoder where the encoder compiles, and it compiles exactly in these cases (for expressions of numbers, names, fields, + - * / % and parentheses): in a variant with named fields if the first operand is a field of the variant; in a tuple variant if it is more than the name of a field. A byteorder that names a field never compiles in the encoder of a variant. Every text of Rust's grammar of such expressions is read as its tree by the model of rustc used here.", "quantifier": "all texts of expressions, all fields and values, all meanings of numbers and operators", "why_tests_cant": "Expressions are arbitrary texts; tests only contain a few.", "anchors": ["derive/src/jbytes/parse.rs: AttrValue::to_code, to_code2, to_byteorder", "derive/src/jbytes/derive_enum.rs: generate_byte_encode_body", "derive/src/jbytes/encode.rs: generate_encode_body2"]}
{"id": "C71", "title": "32-bit and 64-bit targets agree on the wire", "statement": "For every schema without usize, isize and offset, whose attributes evaluate to 32-bit numbers whatever the values of the earlier fields and whose prefixes and tags have at most four bytes, a program for a 32-bit target and one for a 64-bit target have the same outcome: decoding any data below 2^31 bytes gives the same value, the same error and the same position; encoding any value whose bytes stay below 2^31 gives the same bytes, count or error. What either target encodes the other decodes to the same value. The same holds for every history of reader calls, pushes and std::io calls that stays below 2^31, and for every history of calls on &[u8] and io::Cursor that reads no usize or isize. Outside of these conditions the targets differ.", "quantifier": "all schemas of the class, all values, all data and positions, all histories of calls", "why_tests_cant": "Tests run on one target only, and only for a few values; the difference is in conversions to usize all over the code.", "anchors": ["src/decode/impls_bytes.rs: decode_inner", "src/decode/mod.rs: get_count_and_try_count", "src/decode/impls_int.rs", "src/encode/impls_int.rs", "derive/src/jbytes/parse.rs: AttrValue::to_code", "derive/src/jbytes/derive_enum.rs", "src/buffer.rs: Seek, Write"]}
{"id": "C72", "title": "The example packets are laid out as the protocols say", "statement": "With the structs declared in the examples, every valid Ethernet, IPv4 (RFC 791), TCP (RFC 9293) or UDP (RFC 768) header, every Ethernet/IPv4/TCP-or-UDP frame with any payload, every HTTP request of up to 20 header fields (with the method as text or as one of nine names), every message of the socket example and every command of the enum example is encoded to exactly the octets of the protocol and decoded back to the same fields, leaving what follows. Conversely every input is such a packet followed by something (then it decodes to it, and encoding gives the same octets) or a proper beginning of one or carries an unknown tag (then decoding is an error and never a panic); as an HTTP request any input is read or rejected within its bounds, and with an enum for the method only the nine names are read.", "quantifier": "all headers with fields in range, all option strings and payloads, all header field lists, all byte strings as input", "why_tests_cant": "The examples check one packet each. That bit fields, computed lengths, value conversions and nested enums together give the protocol's layout for every packet, and that no input is misread, is a statement about all of them.", "anchors": ["examples/packet_ethernet_example.rs: Ethernet", "examples/packet_ipv4_example.rs: Ipv4", "examples/packet_tcp_example.rs: Tcp", "examples/packet_parse_example.rs: Layer", "examples/packet_http_example.rs: Http", "examples/packet_http_example_2.rs: Http", "examples/packet_http_example_3.rs: Http", "examples/socket_example.rs: Message", "examples/enum_example.rs: SimpleExample"]}
{"id": "C73", "title": "The reading traits and decoders work over any reader", "statement": "A type that implements BufRead by its five required methods, and whose methods move the position to where they say as long as that is in the data, gives the same answers, errors and positions as Bytes over the same data: for every reading call, for every program that makes calls and decides by the answers what to do next, and for every derived or provided decoder without offset (with offset too, if it can be moved anywhere). Every implementor of BufReadMut that keeps its data and moves forward as told gives the same answers to all calls as Bytes, apart from take_byteorder_uint/int; one that gives up what it has read, as slices do, gives the same values, error kinds and rest for all calls other than the searching ones.", "quantifier": "all types that implement the traits and keep these promises, all reading calls and histories, all adaptive client programs, all schemas, modifiers, data and positions", "why_tests_cant": "implementors are written by users: no test of the library can try them", "anchors": ["src/buf_traits.rs: BufRead", "src/buf_mut_traits.rs: BufReadMut", "src/decode/*.rs", "derive/src/jbytes/decode.rs", "derive/src/jbytes/derive_enum.rs", "src/bytes.rs: BufRead for Bytes", "src/impls.rs: BufReadMut for &[u8], Cursor"]}
{"id": "C74", "title": "Encoders work over any writer", "statement": "A type that implements BufWrite by its required methods, whose resize makes the room asked for or returns 0, and whose set_position goes to where it is told within the contents, can be encoded into: if encode(value) succeeds with some bytes, encode_to_buffer/encode on that type writes just those bytes at its position and moves it after them, whatever lies before or after, and returns what it returns for a new Buffer; if it lacks the room and refuses to grow, the error is PushFail, nothing before the position is changed and nothing is lost. If encoding to a new Buffer fails, it fails the same way there, the error's position counted from the start. In particular, encoding at any position inside a Buffer overwrites there exactly what encode returns. For types in which each bit field has the word it is merged with before it.", "quantifier": "all types that implement the trait and keep these promises, growing or not, all contents and positions, all schemas, modifiers and values", "why_tests_cant": "implementors are written by users: no test of the library can try them", "anchors": ["src/buf_traits.rs: BufWrite", "src/buf_mut_traits.rs: BufWriteMut", "src/encode/*.rs", "derive/src/jbytes/encode.rs", "src/buffer.rs: BufWrite for Buffer"]}
{"id": "C75", "title": "A Buffer is one file to all its interfaces", "statement": "Pushes, reading calls, searches, std::io read, write and seek, set_position, reset_position, advance, encoding of values and decoding of values, in any order and chosen by what earlier calls returned, act on one contents and one position as on an in-memory file: each call returns what the file at that moment determines, and changes only what it is meant to. No call panics, as long as positions stay below 2^63, nothing of length zero is read or pushed past the end, no little-endian read asks for more than eight bytes, encoded values have an encoding, and decoders run on an encoding or are safe on any input.", "quantifier": "all adaptive programs over one Buffer and all its interfaces, all initial contents and positions, also past the end", "why_tests_cant": "the interfaces share one position and one vector; each has tests of its own, their interleavings do not", "anchors": ["src/buffer.rs", "src/buf_traits.rs: BufRead, BufWrite", "src/encode/mod.rs", "src/decode/mod.rs"]}
{"id": "C76", "title": "A struct's source text determines its bytes", "statement": "For a struct with named fields, as written (lines of attributes on the struct and its fields, names, types), whose attribute entries are among those with a meaning and whose names are distinct and not used by the generated code, the derived decoder and the derived encoder both exist and compile; the encoder writes for every value exactly what the text says, the decoder reads it back, whatever follows. Numbers and byte orders in attributes may be expressions: each has the value Rust gives it over the earlier fields, in the decoder, where these are local variables, and in the encoder, where they are reached through self, provided that it begins with a field and mentions no other.", "quantifier": "all structs as source text, all values with a wire form, all trailing bytes, every arithmetic of rustc", "why_tests_cant": "the parser of attributes, the two generators of code and the generated code itself meet only in whole declarations, and tests try a few of them", "anchors": ["derive/src/jbytes/attribute.rs", "derive/src/jbytes/parse.rs: to_code, to_byteorder", "derive/src/jbytes/derive_struct.rs: generate_byte_encode, generate_byte_decode", "derive/src/jbytes/decode.rs", "derive/src/jbytes/encode.rs"]}
{"id": "C77", "title": "An enum's source text determines its bytes", "statement": "For an enum, as written (lines of attributes on the enum, its variants and their fields, names, discriminants, types), whose entries are among those with a meaning and fit the way its variants are announced, the derived decoder exists, compiles and decodes, from every position of every input and under every context of use, exactly the type the text describes: same variant, same fields, same errors, same position. The derived encoder exists, compiles and writes, for every value of a variant whose expressions the encoder can do (in a variant with names and in offset they begin with a field; elsewhere they are not a field alone), exactly what that type's encoder writes; so what it writes is read back as the same value, whatever follows. An enum without variants does not compile, nor one whose branch values are not of the kind it is announced by.", "quantifier": "all enums as source text, all values, all inputs, positions and contexts, every arithmetic of rustc and every reading of patterns in which numbers and ranges mean themselves", "why_tests_cant": "numbering, patterns, chains of conditions, the two generators and the generated arms meet only in whole declarations, and tests try a few of them", "anchors": ["derive/src/jbytes/derive_enum.rs: generate_byte_decode_body, generate_byte_decode_body2, generate_byte_encode_body, iter_fields", "derive/src/jbytes/attribute.rs", "derive/src/jbytes/parse.rs: to_code, to_code2, to_byteorder", "derive/src/jbytes/decode.rs", "derive/src/jbytes/encode.rs"]}
{"id": "C78", "title": "Little-endian and big-endian machines agree on the wire", "statement": "A program built for a big-endian machine and one built for a little-endian machine do the same in every history of reading and writing calls (on Bytes, Buffer, slices, cursors and any other implementor), except that a *_ne_* call is the *_be_* call on the one and the *_le_* call on the other. Derived and built-in encoders and decoders give the same bytes, values, errors and positions on both, so what either machine encodes the other decodes.", "quantifier": "all histories of calls, all schemas, all values, inputs, positions and modifiers", "why_tests_cant": "the tests run on one machine, and the conditional code for the other order is not even compiled there", "anchors": ["src/buf_traits.rs: BufRead, BufWrite, the *_ne_* methods", "src/buf_mut_traits.rs: BufReadMut, BufWriteMut, macro_take_bytes", "src/encode/", "src/decode/", "src/byteorder.rs"]}
{"id": "C79", "title": "The source text of a tuple struct determines its bytes", "statement": "For a tuple struct whose numbers and byte orders are written out, the derived encoder and decoder compile, write what the attributes say and read it back, provided the first field has an attribute. The decoder knows the fields as v0, v1, ...; the encoder writes self. in front of an expression, so there an expression compiles only if it begins with a number, and that number is then taken for a field: an attribute that mentions a field can be decoded but not encoded.", "quantifier": "all tuple structs as written, all attribute texts, values, expressions and arithmetics", "why_tests_cant": "the derive macros run on arbitrarily many fields and attribute texts; the tests try one tuple struct without expressions", "anchors": ["derive/src/jbytes/derive_struct.rs: generate_decode_struct_body, generate_byte_encode", "derive/src/jbytes/decode.rs: generate_decode_body", "derive/src/jbytes/encode.rs: generate_encode_body", "derive/src/jbytes/parse.rs: AttrValue"]}
{"id": "C80", "title": "A vector read by markers is read exactly as far as the markers go", "statement": "Decoding a vector with a loop_skip_starts marker that is not empty alternates marker and element until no marker follows: it returns the elements read so far, in order, and stops right there, with the input untouched after the last element. It fails or panics exactly when the first bad element does, and it runs for ever exactly when an element does or when the loop comes back to a position it has been at. So it ends on every input if elements do not seek backwards. They can: an offset taken from a signed field lets the input send the loop back to a marker for ever.", "quantifier": "all markers that are not empty, all element types and attributes, all inputs and positions; any number of rounds", "why_tests_cant": "the number of rounds is set by the input and has no bound; termination cannot be tested at all", "anchors": ["src/decode/impls_vec.rs: Vec<T>::decode_inner", "src/buf_traits.rs: take_bytes_starts", "src/bytes.rs: advance", "derive/src/jbytes/decode.rs: offset"]}
{"id": "C81", "title": "Buffers, clones and views do not disturb each other", "statement": "A program may hold any number of buffers, clones of buffers and Bytes views of the same bytes, and use them in any order. Each of them answers every call as if it were alone. A view starts at position 0 wherever the buffer stands and leaves the buffer where it stands; a clone starts with the bytes and the position of its original and is independent of it from then on. New buffers and clones can do every call at any time; a view can be used until its buffer is used by a call with &mut self, and no longer. Two buffers are equal (==) exactly if no sequence of calls can tell them apart.", "quantifier": "all programs that create, clone, view, read, write, seek, encode and decode, in all interleavings the borrow rules allow; all buffers and all sequences of calls", "why_tests_cant": "positions live in cells that shared references can change; no finite set of interleavings shows that no two objects share one", "anchors": ["src/buffer.rs: Buffer, Clone, PartialEq, ToBytes", "src/bytes.rs: Bytes::new", "src/buf_traits.rs: BufRead, BufWrite"]}
{"id": "C82", "title": "The arguments of with_args reach both functions alike", "statement": "with_args holds further arguments, separated by commas, for the functions named by with, with_decode and with_encode. In a struct with named fields, arguments that the derived decoder accepts are accepted by the derived encoder, with the same values, exactly if the first begins with a field and mentions no other and the rest mention none; otherwise the encoder does not compile. In a variant the encoder always accepts them (expressions without casts) with the same values, but hands over a field that stands by itself as a reference. In a tuple struct the encoder accepts them only if the first begins with a number, which it takes for a field.", "quantifier": "all argument lists of expressions made of numbers, names, fields, + - * / % and parentheses; all structs, tuple structs and variants, all values of their fields, every arithmetic", "why_tests_cant": "the macro pastes text; which lists survive the pasting is a statement about all texts", "anchors": ["derive/src/jbytes/decode.rs: generate_decode_body", "derive/src/jbytes/encode.rs: generate_encode_body"]}
{"id": "C83", "title": "Conditions, checks and changed values mean what their texts say", "statement": "if_expr reads its field exactly when its text, an expression over the fields before it, is true. value_decode puts the value of its text, in which the field's own name stands for what was read, in place of that value. check_value turns down the values that differ from that of its text, if the text is no comparison and joins nothing with && or ||. value_encode writes the value of its text: in a struct the field's own name stands for its value and other fields are written with self., in a variant they are written bare, as long as they have no value_encode of their own. value_decode and value_encode that undo each other on paper (* and /, << and >>, + and -) undo each other exactly for the values named in the theorems.", "quantifier": "all texts of the modelled grammar, all fields and values, all earlier fields, every arithmetic; for the pairs of operators, every width, constant and value", "why_tests_cant": "the macro pastes text into generated code; what the result means depends on precedence and on the variables that other fields leave behind, for all texts", "anchors": ["derive/src/jbytes/decode.rs: generate_decode_body", "derive/src/jbytes/encode.rs: generate_encode_body", "derive/src/jbytes/derive_enum.rs: generate_byte_encode_body", "derive/src/jbytes/parse.rs: AttrValue::to_code"]}
{"id": "C84", "title": "Variables are handed to nested structs by name", "statement": "When a struct is decoded, a nested struct that asks for x with get_variable_name sees under x the value of the field x of the directly enclosing struct, converted to usize, if one of the fields decoded so far has x in its variable_name, and 0 otherwise; the order of names in either list does not matter, nor how often x is published. Expressions in its attributes are evaluated with these values, behind its own fields and before constants. Both structs compile. Exceptions: names with spaces around them, and a struct that both asks for variables and publishes some.", "quantifier": "all structs as written, with any lines of attributes, any names and numbers of fields, any lists of names, all values and inputs", "why_tests_cant": "the claim is about every pair of declarations and every text in their attributes; a test fixes one pair", "anchors": ["derive/src/jbytes/decode.rs: generate_decode_body", "derive/src/jbytes/derive_struct.rs: generate_byte_decode_body", "derive/src/jbytes/parse.rs: AttrValue::parse_list", "src/modifiers.rs: ContainerAttrModifiers"]}
{"id": "C85", "title": "Enums ask for variables too", "statement": "An enum that asks for x with get_variable_name, and is a field of a struct, sees under x in the expressions of the fields of its variants what a nested struct would see: the value of the field x of the enclosing struct if it has been published by then, and 0 otherwise, behind the fields of the variant that have been decoded. Which variant is taken, and from where, is as the attributes of the field and of the enum say. Both decoders compile.", "quantifier": "all structs and enums as written, with any lines of attributes, any variants and fields, any lists of names without spaces and without names the generated code uses itself, all values and inputs", "why_tests_cant": "the claim is about every pair of declarations; a test fixes one", "anchors": ["derive/src/jbytes/derive_enum.rs: generate_decode_body", "derive/src/jbytes/decode.rs: generate_decode_struct_body", "src/modifiers.rs: ContainerAttrModifiers"]}
{"id": "C86", "title": "Encoders of structs with variables", "statement": "The encoder derived for a struct with variable_name on its fields, or with get_variable_name, compiles if every expression in its attributes begins with a field and mentions no other, or is a length whose text occurs in the list of variables and mentions no field. It writes what the declaration says, with 0 for each variable, because encoders hand on nothing. If only lengths of texts depend on variables, the decoder, which does hand them on, reads back what has been written. An integer whose length is a variable is not written at all.", "quantifier": "all structs as written, with any lines of attributes, fields, lists of names, values and following bytes", "why_tests_cant": "the claim is about every declaration and value; a test fixes one of each, and the encoder's 0 in place of the variable shows only where the width of something depends on it", "anchors": ["derive/src/jbytes/derive_struct.rs: generate_byte_encode", "derive/src/jbytes/attribute.rs: FieldAttributes::to_code", "derive/src/jbytes/encode.rs: generate_encode_body"]}
{"id": "C87", "title": "Encoders of enums with variables", "statement": "The encoder derived for an enum with get_variable_name compiles if every expression on the fields of its variants is one that C70 allows there, or is a length whose text occurs in the list of variables and that is not a field alone. It writes what the declaration says, with 0 for each variable. The decoder reads it back if only the lengths of texts depend on variables. In a variant with named fields a length that is made of a variable but does not occur in the list does not compile in the encoder, although it does in the decoder.", "quantifier": "all enums as written, with any lines of attributes, variants, fields, lists of names, values and following bytes", "why_tests_cant": "the claim is about every declaration and value; a test fixes one of each, and the text search that decides how a length is compiled goes wrong only for some texts", "anchors": ["derive/src/jbytes/derive_enum.rs: generate_byte_encode", "derive/src/jbytes/attribute.rs: FieldAttributes::to_code", "derive/src/jbytes/encode.rs: generate_encode_body2"]}
{"id": "C88", "title": "Tuple structs with variables", "statement": "A tuple struct hands its fields on as variables v0, v1 and so on: a type inside it that asks for one of them finds the value of that field, and 0 if it is not published. The decoder derived for a tuple struct with variable_name or get_variable_name compiles (if its first field has an attribute) and reads what the declaration says; so does the encoder, with 0 for each variable, if every number in it is written out or is a length whose text occurs in the list of variables and mentions no field before it. What the one writes the other reads back if only the lengths of texts depend on variables. A tuple that asks for variables and hands some on does not compile. A length \"v0\" in a tuple that asks for v0 is the first field in the decoder, but the variable in the encoder.", "quantifier": "all tuple structs as written, with any lines of attributes, fields, lists of names, values and following bytes", "why_tests_cant": "the claim is about every declaration and value; a test fixes one of each, and which of two things called v0 is meant differs between the two macros", "anchors": ["derive/src/jbytes/derive_struct.rs: generate_byte_decode, generate_byte_encode", "derive/src/jbytes/decode.rs: generate_decode_body", "derive/src/jbytes/attribute.rs: FieldAttributes::to_code"]}
{"id": "C89", "title": "Containers with codecs of their own", "statement": "A struct or an enum with with_decode = \"f\" is decoded by f, and with with = \"m\" alone by m::decode, called with the modifiers the container has got; a struct with with_encode = \"g\" is encoded by g, and with with = \"m\" alone by m::encode, and returns the count that function returns. Whatever else stands on the container or its fields does not matter then: to other types it is a type with a hand-written codec. If the last such entry names a function that does not exist, nothing compiles. A struct with a function for one direction only is read or written in the other as its fields say. For enums the encoder does not compile, whatever the function.", "quantifier": "all containers as written, with any entries, all functions, fields, modifiers, values and input bytes", "why_tests_cant": "the functions are arbitrary programs of the user and the claim is that nothing is done beside calling them; that some generated code does not compile is about all enums", "anchors": ["derive/src/jbytes/derive_struct.rs: generate_byte_decode_body, generate_byte_encode", "derive/src/jbytes/derive_enum.rs: generate_decode_body, generate_byte_encode", "derive/src/jbytes/attribute.rs: ContainerAttributes"]}
{"id": "C90", "title": "Arithmetic in attributes is that of the fields' types", "statement": "An expression over integer fields in an attribute (such as length = \"len - 4\") has the value it has in mathematics, cut down to a usize, if no part of it leaves the type of its operands; a derived decoder then uses that number, and the encoder uses the same number wherever it accepts the expression. If the user's crate is built with overflow checks, the code panics exactly when some part has no value in its type: a result out of range, a division by 0, a shift by too much. Without the checks it panics at most for a division, a value always has its type, and sums, differences and products come out modulo the number of values of the type. So a length that should be negative is not an error: with len: u8 the decoder with length = \"len - 4\" reads 254 bytes if len is 2.", "quantifier": "all expressions the compiler accepts (one type of integers, casts between types, numerals), all values of the fields, both build modes, all inputs", "why_tests_cant": "the values of the fields come from the input; whether any of them can overflow, and what then happens, is about all their values and about both build modes", "anchors": ["derive/src/jbytes/parse.rs: AttrValue::to_code (generated text `(expr) as usize`)", "derive/src/jbytes/derive_struct.rs", "derive/src/jbytes/attribute.rs: FieldAttributes"]}
{"id": "C91", "title": "Conditions in attributes are about the numbers the fields hold", "statement": "A condition in an attribute (if_expr = \"...\"), made of comparisons of integers, boolean fields, &&, ||, ! and the operators on truth values that need both operands (&, |, ^, ==, < and so on), holds in the generated code, in both build modes, exactly if it holds of the fields' numbers in mathematics, as long as no part of it that is needed leaves its type; what && and || leave out may be anything that compiles. With overflow checks the code panics in all other cases, and in no others; without, only a division can panic. So len >= k && len - k > 0 says k < len for every integer type and value, while len - k > 0 alone is true for an unsigned len less than k: the decoder then reads the optional field.", "quantifier": "all conditions the compiler accepts of this kind, all values of the fields, both build modes, all inputs", "why_tests_cant": "the fields' values come from the input, and the guard must protect the second operand for all of them", "anchors": ["derive/src/jbytes/decode.rs: generate_decode_body", "derive/src/jbytes/attribute.rs: FieldAttributes.if_expr", "derive/src/jbytes/derive_struct.rs"]}
{"id": "C92", "title": "Structs whose attributes calculate round trip, whatever the calculation does", "statement": "A struct whose attributes contain expressions over earlier integer fields (length, count, byte order and so on) that compile for both directions, executed in the integers of those fields' types without overflow checks, round trips: a value whose lengths are what those expressions compute in the machine is written by the derived encoder as the layout its text states, and the derived decoder reads it back and stops where it ends, whatever follows. That includes values for which the arithmetic wraps: with length = \"len - k\" the text is as long as len - k comes out in len's type, in both directions.", "quantifier": "all structs with such attributes, all field values, all trailing inputs", "why_tests_cant": "encoder and decoder evaluate the same text in different scopes (self.x and a local variable), and the numbers come from the input", "anchors": ["derive/src/jbytes/parse.rs: parse_expr", "derive/src/jbytes/derive_struct.rs", "derive/src/jbytes/encode.rs", "derive/src/jbytes/decode.rs"]}
{"id": "C93", "title": "Overflow checks only turn decoding into a panic, and only where an expression has no value", "statement": "A crate with derived decoders can be built with overflow checks (debug) or without (release). For a struct whose attributes contain well-typed expressions over earlier fields, the decoder of the debug build either panics or does exactly what that of the release build does, on every input. Where the release build delivers a value, the debug build delivers the same value and stops at the same place if every expression in the attributes has a value for those fields as a matter of arithmetic (nothing leaves its type, no shift is too far, no divisor is zero), and panics otherwise. So with length = \"len - k\" every input whose len is below k makes the debug build panic, whereas the release build reads on.", "quantifier": "all structs with well-typed expressions in their attributes, all decoders of the field types, all inputs and positions", "why_tests_cant": "whether an expression overflows depends on the input, and tests run in one of the two builds", "anchors": ["derive/src/jbytes/attribute.rs: to_code", "derive/src/jbytes/decode.rs", "derive/src/jbytes/derive_struct.rs", "derive/src/jbytes/parse.rs: parse_expr"]}
{"id": "C94", "title": "Overflow checks only turn encoding into a panic, and values whose expressions are defined survive the round trip in every build", "statement": "For a struct whose attributes contain well-typed expressions over earlier fields, the derived encoder of a debug build (with overflow checks) either panics or does exactly what that of a release build does, for every value. Where the release build succeeds, the debug build writes the same bytes if every expression the encoder evaluates has a value as a matter of arithmetic, and panics otherwise; padding in front of a field that is skipped, or not taken, is not evaluated. A value for which all expressions have values, and which fits its attributes, is written as the attributes say and read back unchanged in either build. With length = \"len - k\", a value whose len is below k is written by the release build and makes the debug build panic.", "quantifier": "all structs with well-typed expressions in their attributes, all values of their fields, all encoders of the field types, both builds, all bytes that follow", "why_tests_cant": "whether an expression overflows depends on the value, and tests run in one of the two builds", "anchors": ["derive/src/jbytes/attribute.rs: to_code", "derive/src/jbytes/encode.rs", "derive/src/jbytes/derive_struct.rs", "derive/src/jbytes/parse.rs: parse_expr"]}
{"id": "C95", "title": "An expression in an attribute compiles exactly if it is well typed", "statement": "In a struct whose fields are integers and truth values, an expression in an attribute is accepted by the compiler exactly if it is a number, or an integer expression whose operands have one type (a number takes the type of the other operand and must fit it; the amount of a shift may have any integer type), or a condition built from comparisons of such expressions and from truth values. (Not in question: operations on numbers alone, such as 4 * 4 or 1 << n, and casts of conditions or to types other than integers.) Dividing by a literal zero does not compile. Whether an expression compiles depends on the types of the fields only, not on their values; it has one type, and in either build it gives a value of that type or panics.", "quantifier": "all texts of expressions the macro reads, all types and values of the fields, both builds", "why_tests_cant": "a test compiles the expressions somebody wrote; which of all texts compile is not observable from any of them", "anchors": ["derive/src/jbytes/attribute.rs: to_code", "derive/src/jbytes/parse.rs: parse_expr"]}
{"id": "C96", "title": "A truth value cast to an integer counts as 1 or 0 in an attribute", "statement": "In a number or a condition of an attribute, c as T, where c is a field that holds a truth value or any condition over earlier fields and T an integer type, is 1 if c is true and 0 if it is not, in every build; the whole expression has the value it has with a field of type T that holds this number in its place. With length = \"flag as usize * k\" the length is k if the flag is set and 0 otherwise. A text of that length is written and read back.", "quantifier": "all expressions, all conditions in them that are true or false as a matter of arithmetic, all fields and values, both builds", "why_tests_cant": "a test evaluates a few expressions with a few values in one build", "anchors": ["derive/src/jbytes/attribute.rs: to_code", "derive/src/jbytes/parse.rs: parse_expr"]}
{"id": "C97", "title": "Which texts are network addresses", "statement": "Parsing a text as a network address gives an IPv4 address exactly if it is four decimal numbers below 256 with dots between them and no superfluous zeros; an IPv6 address exactly if it is eight groups of one to four hexadecimal digits with colons between them, or at most seven with one :: in place of the others, where an IPv4 address may stand for the last two groups; a MAC address exactly if it has a colon, is no IPv6 address and consists of one to six groups as MacAddress accepts them. The address is the one the text spells. What is displayed for an IPv4 or IPv6 address is such a text.", "quantifier": "all texts, all addresses", "why_tests_cant": "there are infinitely many texts on either side; a test tries a few", "anchors": ["src/types/net_address.rs: FromStr, Display", "src/types/mac_address.rs: FromStr"]}
