# Formal model of jbytes in Rocq (Coq 8.16.1)

Everything is under `rocq/theories` (logical name `Verif`). Only the Coq standard library is used.

- **Model files** contain definitions only. Each definition cites the lines of /repo it models and says where it
  simplifies.
- **Specification files** contain definitions only and do not use the model's decoders and encoders.
- **Property files** (`Props*.v`) contain the property theorems `Cnn_…`, `Example`s that show that a concrete,
  non-trivial case meets the hypotheses, and `Print Assumptions` for each theorem.
- A theorem `…_refuted` proves that a claim one would expect is *false* of the code. Section 4 lists these findings.
- A theorem `…_partial` proves the part of an English property that is true; a `_refuted` theorem next to it shows
  that the rest is false of the code.

## 1. Files

| model | models |
|---|---|
| `Base.v` | 64-bit `usize` with explicit wrapping, slices, outcomes `Ok / Err / Panic / Hang` |
| `Ints.v` | integer types, `to_be_bytes`, `from_le_bytes`, `as` casts, `src/byteorder.rs` |
| `Reader.v` | `src/bytes.rs`, `BufRead` in `src/buf_traits.rs`: cursor (data, position), take / untake / find |
| `Writer.v` | `BufWrite` in `src/buf_traits.rs`, `src/buffer.rs`: pushes on (data, position) |
| `BufIo.v` | `io::{Read, Write, Seek}` of `src/buffer.rs` |
| `ReadMut.v` | `src/impls.rs`, `src/buf_mut_traits.rs`: `BufReadMut` on `&[u8]` and `io::Cursor` |
| `WriteMut.v` | `BufWriteMut` in `src/buf_mut_traits.rs` (same text as `BufWrite`) over an arbitrary implementor |
| `ReadAny.v`, `AnyDecode.v` | `BufRead` over an arbitrary implementor, its clients, and the decoders over it |
| `AnyEncode.v` | the encoders over an arbitrary implementor of `BufWrite` |
| `BufferCalls.v` | all that can be done with one `Buffer`, and programs that do it |
| `GenArgs.v` | `with_args` as text: what the macros paste into the calls, and the arguments rustc makes of it |
| `GenValue.v` | `if_expr`, `check_value`, `value_decode`, `value_encode` as text: what the macros paste, and the values rustc makes of it |
| `Objects.v` | several `Buffer`s and `Bytes` in one memory: `clone`, `to_bytes`, `Bytes::new`, `==`; borrows end with an exclusive use |
| `Source.v` | structs as written: from lines of attributes to the declarations the generated statements are made from, with the code of expressions evaluated |
| `TupleSource.v` | the same for tuple structs, whose fields are `v0` in the decoder and `self.0` in the encoder |
| `VarSource.v` | the same for the decoders of structs and enums with `variable_name` and `get_variable_name`, by name |
| `VarEncode.v` | the encoders of such structs and enums |
| `VarTuple.v` | the decoders and encoders of such tuple structs |
| `OwnCodec.v` | containers that name functions to decode or encode them (`with`, `with_decode`, `with_encode`) |
| `MachineExpr.v` | the operators in expressions as the user's crate executes them: integers of a type, numerals without one, truth values, overflow checks on or off, panics |
| `MachineEncode.v` | the derived encoder with that arithmetic: the fields are members of `self`, with their types |
| `MachineBuild.v` | the derived decoder in a crate built with overflow checks or without: a statement in which an expression panics ends it. Expressions in `value_decode`, `check_value` and `with_args` are taken not to panic |
| `MachineBuildEncode.v` | the derived encoder in a crate built with overflow checks or without, for a value with given fields. Expressions in `value_encode` and `with_args` are taken not to panic |
| `EnumSource.v` | enums as written: numbers, patterns, chains and arms put together, with the code of expressions evaluated in the fields of the variant; codecs of the container's own are left out here and in `Source.v`; variables too, see `VarSource.v`, `VarEncode.v` |
| `Memory.v` | the `unsafe` blocks, with the memory they use: `src/decode/impls_array.rs`, casts in `src/buf_mut_traits.rs` |
| `Utf8.v` | `core::str::from_utf8` |
| `Schema.v` | the derivable types `ty`, values `val`, attributes as written (`fspec`, `cspec`, `espec`, `vspec`) and as the runtime sees them (`fattr`, `cattr`; `src/modifiers.rs`) |
| `Decode.v` | `src/decode/*.rs`, and the code generated by `derive/src/jbytes/{decode,derive_struct,derive_enum}.rs` |
| `Encode.v` | `src/encode/*.rs`, and the code generated by `derive/src/jbytes/{encode,derive_struct,derive_enum}.rs` |
| `Text.v` | text forms in `src/types/*.rs`: MAC, network addresses, hex strings |
| `IpText.v` | parser and `Display` of `core::net::{Ipv4Addr, Ipv6Addr}` (not in /repo) |
| `Serde.v` | the serde implementations in `src/types/*.rs` |
| `AttrParse.v` | `derive/src/jbytes/{parse,attribute}.rs`: from the entries of `#[jbytes(..)]` to `fspec`, `cspec`, `espec` |
| `EnumText.v` | `derive/src/jbytes/derive_enum.rs`: numbers, `match` arms and prefix conditions of variants, from their text |
| `GenDecode.v` | `derive/src/jbytes/decode.rs`, `derive_struct.rs`: the statements of a derived decoder, their local variables, what rustc checks of the names |
| `GenEncode.v` | `derive/src/jbytes/encode.rs`, `derive_struct.rs`, `derive_enum.rs`: the statements of a derived encoder, likewise |
| `GenExpr.v` | `derive/src/jbytes/{parse,attribute}.rs`: the text written for expressions in attributes, and the part of Rust's grammar and scoping that gives it a meaning |
| `JDefault.v` | `crates/jdefault-rs/src`: the `Default` implementations generated by `Jdefault` |
| `JGet.v` | `crates/jget-rs/derive/src`: the getters generated by `Jget` |
| `CheckedReader.v`, `CheckedWriter.v`, `CheckedIo.v`, `CheckedReadMut.v`, `CheckedDecode.v`, `CheckedEncode.v` | the same code in a build with overflow checks |
| `NarrowReader.v`, `NarrowWriter.v`, `NarrowIo.v`, `NarrowReadMut.v`, `NarrowWriteMut.v`, `NarrowDecode.v`, `NarrowEncode.v` | the same code on a 32-bit target |
| `BigReader.v`, `BigWriter.v`, `BigDecode.v`, `BigEncode.v`, `BigReadMut.v`, `BigWriteMut.v` | what depends on the order of bytes in memory, on a big-endian target |
| `ErrorText.v` | `Display` of errors in `src/errors.rs` |
| `Sugar.v`, `Examples.v`, `UnitExamples.v`, `DeriveExamples.v` | notation for schemas; the model run on the repository's own tests: `tests/`, the unit tests in `src/`, and the tests of `jdefault-rs` and `jget-rs` |
| `Packets.v` | the packets declared in `examples/` |

The code of a derive is modelled by an interpreter: a value of type `ty` describes the Rust type together with its
attributes, and `dec t` / `enc t` is what the generated `decode_inner` / `encode_inner` does. Hand-written
implementations (`TUser`) and the functions named by `with`, `with_decode`, `with_encode` are arbitrary Coq functions
inside the schema; the theorems ask of them what they say about the whole (`keeps_format`, `each_decoder`,
`each_encoder`).

| specification | content |
|---|---|
| `Spec.v`, `SpecOps.v` | positional numbers, occurrences, overwriting, the abstract file, byte images of operations |
| `Utf8Spec.v` | well-formed text after RFC 3629 |
| `RunSpec.v` | `writes_as`, `reads_as` and the other contracts of encoders and decoders |
| `WireSpec.v` | the wire format: `wire` (bytes of a value), `fits` (encodability conditions), `well_formed` schemas |
| `CodecSpec.v` | collections, bit groups, enum tags |
| `SafetySpec.v` | classes `safe`, `delimited`, `counted`, `encodable` |
| `TypeSpec.v` | `value_of`: which values belong to a type |
| `CanonSpec.v` | class `canonical` |
| `FieldSpec.v` | what the modifiers of a field say |
| `SizeSpec.v` | `elements`, `depth`, `takes_a_byte` |
| `AttrSpec.v` | numerals, literals, what each attribute entry says, which entries exist |
| `EnumTextSpec.v` | what entries on containers and variants say; `declares`: a declaration and its `vspec` |
| `GenSpec.v` | `position_taken`, `reserved`: the field names that clash with those of the generated code |
| `GenEncodeSpec.v` | `encoder_names`, `tag_names`: the names the generated encoder uses; fields that are not written, or written as something else |
| `GenExprSpec.v` | `one_field_first`, `no_field`: expressions by the names in their tokens; what a struct value is |
| `ErrorSpec.v` | `reports`: what an error tells; which kinds there are |
| `StreamSpec.v` | the receiver of a message in pieces; class `streamed` |
| `WriteMutSpec.v` | `writer`: what an implementor of the writing traits promises |
| `AnySpec.v` | `reads_inside`, `reads_anywhere`, `reads_forward`, `reads_off`: what an implementor of the reading traits promises |
| `AnyWriteSpec.v` | `writes`: what an implementor of `BufWrite` promises; `as_on_buffer`: encoding into it against encoding into a `Buffer` |
| `FileSpec.v` | `acts`: what each call does to a file with contents and an offset; `may_ask`: the calls that are in order |
| `SourceSpec.v` | `source_says`: the type a struct's text describes; `number_is`: the value of an expression; `source_writable`: expressions the encoder can use |
| `TupleSpec.v` | `tuple_says`: the type a tuple struct's text describes; `literals_only`: attributes that mention no field |
| `VarSourceSpec.v`, `VarEncodeSpec.v` | `source_hands`, `enum_asks`: the type the text of a struct or an enum with variables describes; `hands`: what is found under a name; `asking_writable`: what its encoder can do |
| `VarTupleSpec.v` | the same for tuple structs: `tuple_hands`, `tuple_asking_writable` |
| `OwnCodecSpec.v` | which functions a container names: `decodes_with`, `encodes_with`; what its fields say beside that: `body_hands` |
| `MachineSpec.v` | what an expression of integers stands for: `has_type`, `value`, `sum_of`, `wraps_to`; when a condition holds: `is_condition`, `decides` |
| `MachineEncodeSpec.v` | attributes that calculate in both directions: `all_calculate` |
| `MachineBuildSpec.v` | structs whose attributes rustc accepts (`source_typed`), and when every expression in them has a value (`source_defined`) |
| `MachineBuildEncodeSpec.v` | when every expression the encoder evaluates has a value (`source_encodes`): the padding of a field that is skipped, or not taken, is not evaluated |
| `MachineTypedSpec.v` | which expressions rustc accepts: numbers, expressions that have a type, conditions; and which ones the rules leave out |
| `MachineCountSpec.v` | an expression with the conditions that are cast replaced by 1 and 0 (`counts`) |
| `EnumSourceSpec.v` | `enum_says`: the type an enum's text describes; `fields_writable`: expressions its encoder can use |
| `JDefaultSpec.v` | `has_default`: the default value that a declaration describes |
| `GetSpec.v` | what a user reads in `#[jget(..)]`: requested names, types and expressions |
| `CheckedSpec.v` | what is asked of codecs when builds are compared; `grouped`: bit fields follow their word |
| `NarrowSpec.v` | `portable`: schemas whose numbers have 32 bits on both targets |
| `MutBuildsSpec.v` | `ends_below`: implementors of `BufReadMut` whose positions stay in range; calls that read no `usize` |
| `LoopSpec.v` | the loop over markers and elements as a relation between positions |
| `GenArgsSpec.v` | `listed`: texts with commas between; `first_is_field` |
| `GenValueSpec.v` | `compared`: what `x != ` and a text say; `to_write`: what `value_encode` describes; `machine`: wrapping arithmetic |
| `ObjectsSpec.v` | the calls on one object among those of a program; the same calls alone |
| `BigSpec.v` | `read_in`, `write_in`: a `*_ne_*` call as the call of a given order |
| `PacketSpec.v` | the packets of the examples, as the RFCs lay them out |
| `TextSpec.v` | hex digits, groups, decimal numbers, what is needed of std's IP text forms |

All other files are proofs: `*Lemmas.v`, `*Hist.v`, `CodecBase.v`, `DecWire.v`, `RoundTrip.v`, `Collections.v`,
`Containers.v`, `Bounds.v`, `Locality.v`, `Robust.v`, `FieldEffects.v`, `Counting.v`, `Typing.v`, `EncSafe.v`,
`EncBits.v`, `Canonical.v`, `Sizes.v`, `CheckedEnc.v`, `NarrowEnc.v`, `PacketText.v`, `PacketExact.v`.

## 2. How each property is stated and proved

Byte layer

- **C01–C03** integers. The specification is the positional sum. Conversion by induction on the width.
- **C04, C05, C06, C07, C11** reader primitives. An inductive type of all calls; single calls by case analysis on the
  bounds with 64-bit wrapping, histories by induction on the list of calls.
- **C52** every call that reads a given number of bytes, against the table `reading` (SpecOps.v).
- **C08–C10** searches. `memchr::memmem` and `aho-corasick` are executable searches in the model; the theorems say
  leftmost / earliest end, longest among those, against an independent relation `occurs_at`.
- **C12–C14** writer. `overwrite` is the specification; histories by induction.
- **C56** the writing traits over any implementor that keeps the promises of `writer`; histories by induction.
- **C15, C16** `Buffer` as a file: refinement of an abstract file for every history.
- **C38, C39** `BufReadMut`: simulation between slice / `io::Cursor` and `Bytes` for every history.

Codecs (schemas and values of any size and nesting, by induction over schemas with a hand-made induction principle)

- **C17** byte order: decoder and encoder depend on field and container order only through `order_for`.
- **C18, C19, C20, C27** integers with `length`, bit groups, byte strings, addresses: `reads_as` / `writes_as`.
- **C22–C26** collections: described by `runs`, "the element decoder run from where the last one stopped".
- **C30, C31** whole values. `wire t ca fa v = Some w` gives the bytes. Two inductions: the encoder writes `w`; the
  decoder, in front of `w` followed by `rest`, returns `v` and consumes `w`.
- **C57** messages in a row: induction on the sequence, from C30; unambiguity from the decoder being a function.
- **C32** byte counts; **C45** encoders do not panic and only write at the position (with bit
  fields: do not panic): induction on the encoder.
- **C33, C35** truncated and extended input: on `delimited` schemas a decoder is *confined* to what it consumes.
- **C34** totality on `safe` schemas: every decoder keeps the position inside the data.
- **C67** errors: every error arises from a call at the position where it stands and nothing moves afterwards; induction
  on the schema. The text: the digits at the end determine the position, the rest the kind.
- **C68** pieces: decoders are *settled* (more bytes change nothing but `InvalidByteLength`), a property that sequencing
  keeps; induction on the schema, then on the list of pieces.
- **C36, C37, C42, C43** scope of modifiers, variables, `check_value`, `untake`: about every struct and variant.
- **C21, C44** what is decoded is text / a value of the type: induction on the decoder.
- **C40** canonical schemas: what is decoded is encoded to the bytes it came from; so encodings are unique.
- **C41** size of what is decoded: elements at every level are at most depth times bytes consumed.
- **C53** a field's codec gets what the modifiers written on the field say (`conveys`), at the place where the fields
  before it ended, with the variables they publish (`published`).
- **C51** hand-written codecs and `with`: the field is what its functions make of it, and functions that keep to a
  format can stand anywhere in a container. C30, C32–C35, C40, C41, C44 and C45 cover schemas that contain them.

Text forms

- **C28, C29, C46, C47, C59** induction on the text. For C47 the standard library's IP text forms are modelled
  (`IpText.v`) and shown to meet `ip_standard`; the rest holds for any text forms that do.

Attributes

- **C48, C49** literals: induction on the text, with `written_in` (positional numerals) as specification.
- **C50** entries: `says` gives the meaning of one entry in the notation of `Sugar.v`; lists by induction, order by
  induction on the permutation, from disjointness of what two entries set.
- **C54, C55** `Jdefault`: the generated expressions are modelled, then evaluated the way rustc would; induction on the
  derivation of `has_default`, which is nested in the lists of fields; for the converse, induction on the type.
- **C63** entries on containers: induction on the list from its end, where the deciding entry is.
- **C64** variants: first and last occurrences in texts; the numbers by induction on the list of variants; the generated
  `if` chain as a list of conditions with Rust's grammar as a predicate.
- **C65** names of fields: a run of the statements is simulated by `dec_fields` as long as no name in use is hidden; that
  none is follows from the code compiling, by induction on the fields.
- **C69** names of fields in encoders: as C65, with the buffer, the sum of bytes and the rewritten values as the state;
  `encode_fields` is what the statements are compared with, `differ_at` says which values an expression may look at.
- **C66** expressions: lexing splits at characters that are not part of words; parsing `self.` + text gives the same tree
  with another leaf at the far left (`graft`), by induction on the parser's fuel; evaluation of both trees compared.
- **C70** expressions in variants: the grammar as an inductive relation on texts; the parser is complete for it; a star before
  the text changes the first operand only; values and references compared by induction on the tree.
- **C60, C61** `Jget`: what the derive decides from the text of names and types, by lemmas about removal of substrings
  and prefixes of text; the generated functions are evaluated for any values of the fields.
- **C58** `unsafe` blocks: the array loop over slots that may hold no value, by induction; slices cast to arrays.
- **C62** builds with and without overflow checks: two models side by side, induction over schemas; an encoder is followed
  with the room it needs and the width of the bit-field word it is in.
- **C71** 32-bit and 64-bit targets: two models side by side, as for C62. The decoder is followed with the types of the values
  it has read, because attributes may use them; the encoder with the size of the data, which never shrinks.
  `BufReadMut` (here and in C62): over any implementor whose positions stay below 2^32 (2^64), call by call.
- **C78** big-endian targets: two models side by side. Calls by cases, histories by induction; decoders and encoders unfold
  to the same function, because none of them asks for the machine's order.
- **C72** the packets of the examples: their schemas (`Packets.v`) against layouts from the RFCs, field by field, then C30 and C33.
  For any input a packet is constructed whose layout it begins with or is the beginning of.
- **C73** the reading traits and the decoders over any implementor: a simulation of `Bytes`, function by function, then by induction
  on types, histories and client programs.
- **C74** the encoders over any implementor of the writing trait: a simulation that keeps what a new `Buffer` would hold laid over the
  implementor's contents, by induction on types; the promises asked of the implementor are in `AnyWriteSpec.v`.
- **C75** one `Buffer` under all its interfaces: each call against the abstract file, then by induction on client programs.
- **C76** structs from text to bytes: parsing (C50, C63), expressions (C66), statements (C65, C69) and wire forms (C30) composed; the encoder's expressions, evaluated in `self`, agree with the decoder's wherever they are used (`alike`, SourceLemmas.v).
- **C77** enums from text to bytes: as C76, with the choice of the arm (C64) and the fields of a variant as references (C70). The arm that is taken is the first the declaration accepts, for all four ways to announce a variant; `offset`, whose code differs from that of other numbers, is followed separately (`alike_rest`, EnumSourceLemmas.v).
- **C79** tuple structs from text to bytes: as C76, for attributes without expressions. For the others: whatever the parser makes of `self.` and a text has that member at its far left (`self_first`, PropsTuple.v), and a tuple has only numbered ones.
- **C80** loops: the loop as a relation on positions without any bound (`LoopSpec.v`); the decoder's rounds embed in it by induction on the cut-off, and more rounds than bytes visit a position twice (pigeonhole), from where the relation cannot reach an end.
- **C81** several objects: memory with addresses of vectors and cells (`Objects.v`); the invariant is that no two objects share a cell and no two buffers a vector; every step leaves what the others hold, by induction over the program. `C81_usable` shows that the model refuses no call on a buffer or clone, `C81_over` and `C81_shared` say which calls end a view; the list of `&mut self` calls is stated again in `ObjectsSpec.v` (`takes_mut`).
- **C82** `with_args`: the text is split at its commas (`listed`); the first piece as in C66 without parentheses, the others evaluated in both scopes; variants as in C70.
- **C83** texts of `if_expr`, `check_value`, `value_decode`, `value_encode`: evaluated where the macro pastes them, through C66's grammar; `check_value` follows `x != `, so a relation `compared` gives what precedence makes of it and every text is shown to fall under it or to be refused; the encoder's fields by induction, with the variables they leave behind as the invariant.
- **C84** variables by name: what the generated code inserts under each text of `variable_name` and looks up under each text of `get_variable_name`. By induction over the outer fields every entry under a name holds the value of the field of that name, so the latest does; C53 gives the place where the nested decoder runs, C66 the value of its expressions.
- **C85** variables in enums: the arms of an enum are generated as in C77, with the variables of C84 as further names. C77's proof is about any numbers for expressions, so it covers these; C53 gives the place where the enum's decoder runs.
- **C86** encoders of structs with variables: as C76, with the variables as further names next to `self`, all of them 0 in an encoder; `length`, whose code differs from that of other numbers when its text occurs in the list of variables, is followed separately (`alike_but`, VarEncodeLemmas.v). The round trip is C30's, whose wire forms have the variables in them.
- **C87** encoders of enums with variables: as C77, with the variables as further names that are not references; `length` and `offset`, which have code of their own, are followed separately (`alike_two`, VarEnumEncodeLemmas.v). `C87_length` says for every expression whether `length` compiles in a variant with names.
- **C88** tuple structs with variables: C84 and C86 with the names of C79. `asked` variables stand beside `self`, so an expression without fields has the same value on both sides (`eval_plain`, PropsVarTuple.v).
- **C89** containers with codecs of their own: the functions are arbitrary; the body of the generated encoder is modelled as a list of statements, whose last must be `Ok(r_nbytes)`. What is derived beside one function comes from C84 and C86.
- **C90** arithmetic in attributes: the arithmetic that C66 leaves open is filled in with Rust's integers, with and without overflow checks; by induction on typed expressions. `machine_decoder` is the decoder of C76 with it (without checks; a panic stands for 0 there and is ruled out by `value` in the theorems).
- **C91** conditions in attributes: the same arithmetic with comparisons, `&&`, `||` and `!`, where the second operand may be left out; by induction on conditions. `machine_condition` is the condition of a derived decoder with it (without checks; a panic stands for false there and is ruled out by `decides` in the theorems).
- **C92** structs whose attributes calculate: the decoder of C90 and the encoder of `MachineEncode.v`; both compute the same numbers (as in C66 and C90), so the encoder behaves as the schema the text means, and C69 gives the round trip. `MachineEncodeSpec.v` says which attributes calculate.
- **C93** builds with overflow checks and without: a simulation between the two decoders, statement by statement (C90 and C91 relate the expressions); which guard panics depends only on fields that later statements leave alone, so at the end it can be read off the decoded values.
- **C94** the same for encoders, and the round trip in either build: `self.` in front of a field names the same value as in the decoder (C66), so the numbers of the two builds are equal where nothing panics, and with them the statements; C92 then carries over.
- **C95** the typing rules of MachineSpec.v against the evaluation of MachineExpr.v, which models what rustc refuses by having no value: by induction over the expression, a value tells the type, and a type gives a value.
- **C96** casts of conditions: replacing `c as T` by a field that holds 1 or 0 changes no value (induction over the expression, C91 for the condition), so C90 and C91 apply to what is left.
- **C97** texts of network addresses: the parser of `IpText.v` against a grammar (`IpSpec.v`), both ways, by induction over the groups; the point is that reading ahead for an IPv4 address never takes a text away from the hexadecimal groups.

Every property can be expressed in the model. For C16, C17, C28, C36, C37, C38, C58 and C60 the English claim is false of the
code in some cases: the theorem is `_partial` and the exceptions are proved as `_refuted`.

## 3. Trusted base

1. Coq's kernel (`coqc` 8.16.1; `vm_compute` is used in examples).
2. `Print Assumptions` says "Closed under the global context" for every property theorem: no axioms, neither of ours
   nor of the library. (The axioms the checker lists under `Coq.ssr.ssrunder.Under_rel` belong to the plumbing of
   ssreflect's `under` tactic, which the standard library loads. No theorem here depends on them.)
3. That the model says what the Rust code does. Each definition cites its lines. `Examples.v`,
   `UnitExamples.v` and `DeriveExamples.v` run the model on the repository's own tests and find the values written there:
   the types and vectors of `tests/`, every assertion of the unit tests in `src/` about codecs, buffers and text forms,
   and the tests of `jdefault-rs` and `jget-rs`.
4. Semantics of external code, as modelled: `memchr::memmem` (leftmost occurrence), `aho-corasick` in its standard
   match mode (earliest end, longest among those), `core::str::from_utf8`, `Vec::resize`, `from_str_radix`,
   `HashMap` (a list of entries with distinct keys in any order), the `jkcenum` derive for `ByteOrder` and for the method
   in packet_http_example_3.rs, and the text
   forms of `core::net` (`IpText.v`), serde's visitor for `&str` (`Serde.v`).

### Modelled

All of `src/` except what is listed below; of `derive/`, the code the macros generate for structs and enums; of `examples/`,
the declarations of packets.

### Not modelled

- Splitting of attributes into entries (crate `virtue`). Rust expressions in attributes are arbitrary functions of the
  earlier fields and variables (`meaning` in `AttrParse.v`).
- Of expressions (`GenExpr.v`): calls, blocks, `&` in front, literals other than decimal and hexadecimal numbers without
  suffixes or underscores. `a as t < b`, `a as t << b` and `a as t.f`, which rustc does not parse, are read as if the cast stood
  in parentheses.
- Of generated encoders (`GenEncode.v`): expressions that mention later fields, types and dereferences of expressions in
  variants. Variables of `get_variable_name` are kept apart from the names of fields.
- Types: the model is untyped where rustc's type checker does the work; `typed` (TypeSpec.v) states what it ensures.
- Lifetimes, except for views of buffers (`Objects.v`); `ByteDecode` and `BorrowByteDecode` have the same code and share one model.
- Memory exhaustion, running time. Elsewhere than in `Memory.v`, arrays decode as if undefined behaviour did no harm.
- `usize` has 64 bits, except in the `Narrow*.v` models (32 bits).
  Inside an expression in an attribute nothing overflows, except in `MachineExpr.v` (operations on numbers alone such as `4 * 4` and `1 << n` are not in it).
- `*_ne_*` is little-endian except in the `Big*.v` models.
- Overflow checks are off, as in the crate's own `profile.dev`, except in the `Checked*.v` models. (There
  is none for `WriteMut.v`: the code of `BufWriteMut` has no arithmetic of its own.)
- Floats are bit patterns. `no_std` switches.
- Under `branch_take_bytes`, variants without a `branch_value` go by their names in the model; the code does not compile.
- Of `Jget`: borrowing, and whether rustc accepts the generated types; casts other than between integers.

## 4. Findings

Facts about the code that contradict what a user would expect, each a theorem.

Byte layer
- A little-endian variable-width read with n > 8 panics (`C05_wide_le_panics_refuted`).
- With the position past the end, a zero-length take panics (`C05_position_past_end_refuted`).
- Signed variable-width values do not round trip (`C03_signed_refuted`).
- An empty push past the end panics (`C12_empty_push_past_end_refuted`).
- A push whose end wraps around 2^64 clears the buffer (`C14_wraparound_refuted`).
- `Buffer::seek` returns the old position (`C16_returned_offset_refuted`).
- On `&[u8]`, `find_*` cuts at the wrong place or panics (`C38_find_refuted`, `C38_find_panics_refuted`), and
  `take_byteorder_uint` ignores its width (`C38_byteorder_uint_refuted`).
- Decoding an array of a type that has something to drop (`[String; 2]`) drops uninitialised memory: undefined behaviour
  in safe code (`C58_drop_refuted`). So does an implementor of `BufReadMut` whose `take_bytes` returns too few bytes
  (`C58_implementor_refuted`).

Codecs
- A byte order written on a map with `split` or `linend` does not reach keys and values (`C17_map_refuted`).
- Bit-field values are not masked: too big a value spills into its neighbours (`C19_value_too_big_refuted`).
  Without `bits_start`, a bit field takes back a byte of the field before it (`C19_no_start_refuted`).
- Characters above U+00FF are truncated (`C30_char_refuted`); a `from_str` field is written twice
  (`C30_from_str_refuted`); `offset` with `untake` moves the decoder only (`C30_offset_untake_refuted`).
- Strings and vectors longer than their prefix can say are written with a truncated prefix
  (`C20_long_string_refuted`, `C22_many_elements_refuted`); `count` with `byte_count_outside` does not round trip
  (`C22_count_and_prefix_refuted`).
- After a failed element, `try_count` and `Option` leave the position inside it (`C23_position_refuted`,
  `C24_position_refuted`); `None` may read back as `Some` (`C24_none_refuted`).
- Enums: the end of `a..b` is off (`C31_exclusive_range_refuted`), `branch_bits` tags are written as indices
  (`C31_bits_refuted`), the tag of a default variant is lost (`C31_default_refuted`), its name is added to the data
  (`C31_prefix_default_refuted`), it hides variants after it (`C31_default_first_refuted`), and field and container
  `byte_count` disagree (`C31_byte_count_refuted`, `C31_disabled_refuted`).
- The returned byte count misses offset padding and counts bit-field words again (`C32_offset_refuted`,
  `C32_bits_refuted`).
- Decoding can panic or hang: offset past the end, `byteorder` expressions, little-endian lengths above 8, empty loop
  markers (`C34_*_refuted`). With a loop marker that is not empty, an `offset` taken from a signed field sends the loop back: two bytes
  of input decode for ever (`C80_seek_back_refuted`; without overflow checks, with them the same input panics). Encoding panics on `byteorder` expressions and wide little-endian bit fields
  (`C45_*_refuted`).
- A tag that no variant has is reported as `InvalidByteLength`, like missing bytes: a receiver that waits for more waits for
  ever (`C68_unknown_tag_refuted`). Missing line ends and literals are reported as `Fail`, and a missing optional value as
  `None`, although more bytes would help (`C68_lines_refuted`, `C68_optional_refuted`).
- Modifiers leak to later fields of tuple structs and of variants (`C36_*_refuted`).
- Variables are not passed on when encoding (`C37_encode_refuted`).
- `check_value` is ignored with `skip_decode` or `from_str`; `untake` with `from_str` or `offset`
  (`C42_skipped_refuted`, `C43_from_str_refuted`).
- Four input bytes can make `Vec<()>` or `Vec<Option<u8>>` of 2^32 elements (`C41_zero_size_refuted`).
- On a field with `with`, the entries `skip`, `untake`, `value`, `check_value`, `from_str` and `if_expr` do nothing
  (`C51_others_ignored`, `C51_check_refuted`), and `offset` is heeded by the decoder only (`C51_offset_refuted`).
- In a build with overflow checks, `advance` or an `offset` past 2^64, a bit field without its word and a relative seek past
  `isize::MAX` panic instead of wrapping or returning an error (`C62_advance`, `C62_offset_refuted`, `C62_word_refuted`,
  `C62_seek`).
- On a 32-bit target `usize` and `isize` have four bytes on the wire (`C71_usize_refuted`); prefixes and tags of eight bytes
  are cut to four without an error (`C71_prefix_refuted`, `C71_tag_refuted`), so are masks (`C71_bits_refuted`); an `offset`
  can wrap at 2^32 (`C71_offset_refuted`), a seek to 2^31 fails (`C71_seek_refuted`).
- On a 32-bit target an `io::Cursor` moved past 2^32 reads from the beginning again (`C71_cursor_refuted`); `take_uint` of
  `BufReadMut` takes at most four bytes, `untake_uint` eight (`C71_take_uint_refuted`).
- The examples: `header_length - 20` wraps around, so an IPv4 or TCP header that claims to be shorter than 20 octets swallows
  up to 236 or 65516 more (`C72_short_header_refuted`); HTTP header fields have no end, so a body can be taken for one
  (`C72_body_refuted`), and more than 20 are written but not read (`C72_many_fields_refuted`); source and destination of an
  Ethernet header have each other's names.

Attributes
- `0x0x10` and `+5` are numbers (`C48_lenient_refuted`).
- Only the first attribute line counts: a second `#[jbytes(..)]` is ignored, even if it does not exist
  (`C50_second_line_refuted`); `#[default]` or `#[repr(..)]` above it hides it (`C50_default_hides_refuted`,
  `C50_repr_hides_refuted`).
- With both `branch_starts_with` and `branch_starts_with_untake` the encoder writes a prefix that the decoder does not skip
  (`C63_both_refuted`). The derives refuse `#[repr(C)]` and signed `repr`s (`C63_repr_refuted`).
- The derive panics on a `branch_range` in hexadecimal or without an end, on alternatives `1 | 2`, and on a byte string with
  `..` in it (`C64_hex_range_refuted`, `C64_open_range_refuted`, `C64_alternatives_refuted`, `C64_dots_refuted`).
- Under `branch_starts_with`, code for an enum whose first variant has no `branch_value` does not compile
  (`C64_names_refuted`; in general `C64_chain`).
- A field called like a local variable of the derived decoder is captured. `position: usize` with `untake` on it makes the
  reader go where the number says (`C65_position_refuted`); with `untake` on a later field its value is lost
  (`C65_position_lost_refuted`). `input`, `cattr_new`, `fattr_new` do not compile before another field
  (`C65_reserved_refuted`, `C65_fattr_refuted`).
- Derived decoders do not compile for a tuple struct whose first field has no attributes (`C65_tuple_refuted`), for
  `variable_name` in a struct that has attributes of its own (`C65_variable_refuted`), and for `struct S;` and empty enums
  (`Ok(Self {{}})`, `C65_unit_refuted`).
- Derived encoders do not compile for a field with `value_encode` called `buffer`, `r_nbytes`, `cattr_new` or `fattr_new`
  (`C69_reserved_refuted`) or in a tuple struct (`C69_tuple_refuted`); for a field of a variant
  with one of these names (`C69_arm_reserved_refuted`), with a numeric tag also `cattr`, `fattr`, `cr_byte_count`
  (`C69_arm_tag_refuted`); and for `from_str` in a variant (`C69_from_str_refuted`).
- In a variant, a length expression over a field with `value_encode` sees the number that is written; in a struct it sees
  the field (`C69_rewritten_refuted`). `Encode.v` has the latter for both, so its claims about variants hold where no
  expression mentions such a field (`C69_arm`).
- In the encoder of a struct, `self.` is written before the text of an expression: `a + b`, `(a)`, `2 * a`, a constant, and
  a variable of `get_variable_name` do not compile there, although the decoder takes them (`C66_refuted`). Only `length` is
  exempt for variables, by a search for its text in the list of variables, which misses `count + 1` and mistakes a field
  `n` for the variable `count` (`C66_length_refuted`).
- In the encoder of a variant with named fields, `*` is written before the text instead: `2 * a`, `(a + b) * 2`, `head.len`
  and a variable do not compile (`C70_named_refuted`; exactly which in `C70_named`). In a tuple variant nothing is written:
  `length = "v0"` does not compile, `length = "v0 + 0"` does (`C70_tuple_refuted`, `C70_tuple`). `byteorder = "a"` compiles
  in no variant (`C70_byteorder_refuted`).
- In the encoder of a tuple struct no expression that mentions a field compiles (`C79_name_refuted`, `C79_expressions`), and one
  that begins with a number has that field in its place: `offset = "0 + 1"` pads by the first field, plus one
  (`C79_number_refuted`).
- `with_args = "a, b"`: the encoder writes `self.` before the first argument only, so that a second field, or a constant that
  comes first, does not compile (`C82_refuted`); in a tuple struct `"0"` is 0 to the decoder and the first field to the
  encoder (`C82_tuple_refuted`); an empty text does not compile in the encoder (`C82_empty_refuted`).
- `check_value = "a == 2"`, or any comparison, does not compile (`C83_check_comparison_refuted`). `check_value = "a && b"`
  becomes `x != a && b`: wrong values are accepted and, with `||`, right ones turned down (`C83_check_refuted`).
- `value_encode = "x - a"` does not compile in a struct, where it must be `x - self.a`, while `value_decode` must say `a`
  (`C83_other_field_refuted`) — unless `a` has a `value_encode` itself: then `a` compiles, but is what was written for `a`,
  not its value, so that `value_decode = "x + a"` does not undo it (`C83_left_behind_refuted`). The same variable is found by
  `length = "a + b"` (`C83_length_refuted`). In a variant with named fields such a field cannot be used as a length
  (`C83_variant_length_refuted`), in a tuple variant it is the number written (`C83_variant_number_refuted`).
- `value_encode = "x == 3"`, or `x && y`, does not compile: in the encoder `x` is a reference (`C83_compare_refuted`).
- `variable_name = "a, n"`, with a space after the comma, stores the value under ` n`: it compiles, and a nested struct that asks
  for `n` finds 0 (`C84_space_refuted`), and so it is in `get_variable_name` (`C84_space_asked_refuted`). A struct that asks for
  variables cannot hand any on: it does not compile with `variable_name` on one of its fields (`C84_relay_refuted`). Encoders
  hand on nothing: an integer whose length is a variable is written as no bytes at all (`C86_integer_refuted`). In
  a variant with named fields `length = "length"` compiles and `length = "length - 1"` does not (`C87_sum_refuted`). In a
  tuple struct that asks for `v0`, `v0` is the first field in the decoder and the variable in the encoder (`C88_shadow_refuted`).
- An enum with `with` or `with_encode` on it does not compile: its encoder lacks `Ok(r_nbytes)`, which that of a
  struct has (`C89_enum_refuted`).
- `length = "len - 4"` is computed in the type of `len`: if `len: u8` is 2, the decoder reads 254 bytes; in a crate built with
  overflow checks it panics on that input (`C90_negative_refuted`).
- A condition on a difference, such as `if_expr = "len - 4 > 0"` with an unsigned `len`, is true if
  `len` is less than 4, so the optional field is read then (without overflow checks; with them there
  is a panic). `len >= 4 && len - 4 > 0` is right in both builds (`C91_wrapped_refuted`, `C91_guard`).
- In a debug build (overflow checks on) the sender of the input can make a derived decoder panic: with `length = "len - 4"` any `len`
  below 4 does, where a release build goes on to read (`C93_text`; exactly when is `C93_exact`). The encoder panics for the same values (`C94_text`, `C94_exact`).
- `Jdefault` on a field of generic, array, reference or (in named structs) tuple type without a default does not compile
  (`C54_generic_refuted`). A skipped field decodes to the default of its type, not to its own (`C54_skipped_refuted`).

Getters
- `Jget` removes `get_` anywhere in a name: `target_id` is read by `get_tarid()`, and `id` collides with `get_id`
  (`C60_name_refuted`, `C60_lost_name_refuted`). A raw identifier loses its `r#`, so `r#type` does not compile (`C60_raw_refuted`).
  A raw string literal keeps its quotes (`C60_raw_literal_refuted`).
- `get = "x: T"` on an `Option` field does not compile (`C60_option_type_refuted`); neither do types with a comma in
  such a list (`C60_comma_refuted`).

Text forms
- `MacAddress` parses from fewer than six groups and from groups with a plus sign (`C28_short_refuted`,
  `C28_plus_refuted`); so does `NetAddress` (`C47_short_refuted`).
- `HexString` decodes lossily (`C29_decode_refuted`).
- Deserializing from a string that the input does not hold verbatim (a stream, `serde_json::Value`) is always an error
  (`C59_owned_refuted`).

## 5. Mutation testing

`seeded/LOG.jsonl` has one line per wrong program: an edit of the model in a scratch copy, the claim it breaks and the
property theorems that no longer prove. To find these, failing lemmas are admitted in the scratch copy until it
builds, and `Print Assumptions` tells which property theorems depend on them.
