# Formal model of gagliardetto/binary — design

Prover: Rocq/Coq 8.16.1.  Sources: `rocq/theories/*.v`, logical root `Verif`.

## Trusted base

* The Coq kernel (`coqc` 8.16.1; `coqchk` is run at the end).
* Axioms: none.  `Print Assumptions` prints "Closed under the global context"
  for every theorem of the `Props*.v` files (shown during the build).
  (`coqchk -o` lists the axioms of all library files that are loaded, among
  them `Coq.ssr.ssrunder.Under_rel.*` and those of the real numbers if any;
  no theorem here depends on them.)
* The correspondence between the Gallina model and the Go code, which is by
  reading; each definition cites file and lines.
* A 64-bit platform (`int` and `uint` are 64 bits wide).
* The parts of the Go runtime and standard library that are modelled by hand:
  `encoding/binary` (fixed-width integers, varints), the parts of `reflect`
  that the codec uses, `sort.Slice` (as a sorting function), `unicode/utf8`,
  `crypto/sha256`, `encoding/hex`, the decimal part of `strconv`/`math/big`.

## How Go is modelled

* Bytes and integers are `Z`; every wrap-around is an explicit `mod`.
* `outcome A = Ok a | Err e | Panic | Deep | Stuck`.  `Panic` is a Go panic.
  `Deep` is only produced at `TDeep`, the place where the unrolling of a
  recursive Go type was cut; C70 shows that the depth of the cut does not
  matter and when it cannot be reached.  `Stuck` is produced if a model value does not
  have the shape of its type (cannot happen in Go; the theorems that matter
  show that it does not happen for well typed values).
* An `Encoder` is a state (count, current field order, chunks handed to the
  writer, bytes the writer accepted) plus an arbitrary writer, which is a
  function of the history of chunks: it accepts everything or accepts some of
  the bytes and fails.  A `Decoder` is (data, position, current field order,
  encoding); the position is an unbounded integer so that out-of-range
  positions (and the panics they cause) are visible.  State is returned on
  errors as well.
* Go types are terms of `ty`; struct fields carry name, exportedness and the
  raw tag strings, which are parsed by the model of `parseFieldTag`.  Types
  with their own `MarshalWithEncoder`/`UnmarshalWithDecoder` are `TCodec c u`:
  the methods are arbitrary encoder / decoder programs (`c`), `u` is the
  underlying type.  The types of `types.go` and `u128.go` are instances.
* Go values are terms of `val`; maps are lists of pairs in the (arbitrary)
  order in which the runtime enumerates them.
* The three reflection encoders (decoders) are one function with the encoding
  as parameter: the Go files are copies of each other, and the model branches
  exactly where they differ.  The comments cite all three files.  `GoEnc.v` and
  `GoDec.v` have the functions of the three files one by one, in the order of
  their statements; C63 and C64 prove that they do the same.

### Not modelled
* Log output (`logging.go`, trace calls), the text of errors (only which
  sentinel error is wrapped is kept), memory exhaustion, data races, cyclic
  values (except what Encode does with values that contain themselves, C73 and C88, and rings of interfaces, C67), embedded interfaces (other embedded fields: `Embed.v`, C80), channels and functions (they are
  `TOther`, an unsupported kind), the generated mocks and `cmd`-like files.
* Interface values are opaque (a non-nil interface is encoded as nothing by
  the reflection code).  Inside maps the encoders do look into them: `Stuck` in
  Enc.v; GoEnc.v takes an assignment of dynamic values to interfaces, and C73
  says what is written then.  Borsh sorts interface keys by their dynamic
  values: modelled if all of them are compared in the same way (`common_class`),
  left open for mixed keys.  `TIface` stands for interface types without a
  method `UnmarshalWithDecoder` (with one, `vImplements` in
  decoder_borsh.go would call `Elem` on the interface type and panic).  In Dec.v and
  Dest.v an interface variable is left alone.  GoDec.v has interface variables
  that hold pointers, into which `indirect` (decoder.go:694-760) decodes: C67
  says what happens to one such variable, and to structs that have such fields
  beside others, at any depth of nested structs, and of structs that pointers
  in them or such interfaces point to (`C67_struct`).  The
  transcription also covers interfaces in elements of arrays, behind pointers to pointers, in unexported variants
  of enums, and two interfaces that point to the same variable, but no general
  theorem does (`C67_alias_refuted`: for the same variable, `C67_struct` is false).
* Map keys are compared as Go does: +0 equals -0, NaN equals nothing, fields called
  `_` do not count; the later of two equal keys stays.  Pointer-typed map keys
  (compared by address), user-defined
  `binary.ByteOrder` implementations are not modelled.
* Variants of Borsh enums may be unexported (C78), but are then taken not to be
  embedded: reflect forgets below an unexported embedded struct that it came
  through an unexported field, and its exported fields would be encoded.
* The encoding of a decoder is one of
  three constructors; `Encodings.v` has decoders with any number (C66).
* `reflect.Value.IsZero` is the one of Go 1.16 to 1.19 (as in the CI of the
  repository): -0.0 is not zero and fields called `_` count.  From Go 1.22 on
  it compares with ==; `Zero.v` has the encoders with that (C75).
* Field headers of `ty` hold the values of the three keys `bin`, `borsh_skip`,
  `borsh_enum` of the tag; how these come from the text of a tag
  (`reflect.StructTag.Get`) is modelled in `StructTag.v` (C58).
* `Dec.v` gives the contents of the destination after a successful call.  What
  failing calls leave there is in a second model, `Dest.v` (C62), which takes
  what a failing `UnmarshalWithDecoder` method leaves as a parameter.
  `VariantDest.v` has this for `BaseVariant` (C38) and `JsonDest.v` for the
  JSON methods (C76); `Bool`, `Int64`, `Uint64`, `JSONFloat64`, `Int128` and
  `Float128` store at the end and have no model of their own there.
* Sharing of memory: the reflective decoder works on values.  The methods that
  return byte slices have a second model with a heap in `Alias.v`
  (properties C50, C55, C85) and the methods of the encoder one in `AliasEnc.v`
  (C86), tied to the first ones by theorems.  The spare
  capacity that `append` leaves in a new array is a parameter there, and the
  theorems hold for all choices.
* JSON is modelled for the scalar types (`Json.v`), with the parts of
  `encoding/json`, `strconv` and `math/big` they reach.  `strconv.ParseFloat`
  (`ParseFloat.v`, C59) is modelled with its grammar and its cut of large
  exponents, and the conversion of the digits as the correctly rounded result;
  the algorithms behind it (Eisel-Lemire, decimal shifts) are not.
* The work counted in C71 takes the growth of slices (`reflect.Append`) and the
  insertion into maps as one unit each, as they are on average in Go; what
  `UnmarshalWithDecoder` methods cost is a parameter.
* Case conversion (`heck.go`) has the Unicode tables above U+007F as a
  parameter; theorems about ASCII strings hold for every table.
* SHA-256 is an executable definition (`Sha256.v`), proved to be what FIPS 180-4
  describes (`ShaSpec.v`, C40), and tested on the vectors of FIPS 180-2 and of
  `sighash_test.go`.

## Files

| file | contents |
|---|---|
| Base.v | outcomes, errors, state monad, byte helpers |
| Num.v | `encoding/binary`: fixed width, varints, float bits |
| Compact.v | compact-u16.go |
| Tags.v, StructTag.v | tags-parser.go, tags-options.go; `reflect.StructTag.Get`, `strconv.Unquote` |
| Types.v | encodings, values, encoder/decoder state, Go types |
| EncPrim.v, DecPrim.v | primitive methods of Encoder / Decoder |
| Enc.v, Dec.v | reflection encoders / decoders |
| Dest.v | the reflection decoders with what they leave in the destination when they fail |
| VariantDest.v, JsonDest.v | UnmarshalBinaryVariant and the JSON methods with what they leave when they fail (models and lemmas) |
| GoEnc.v | the reflection encoders once more, function by function and statement by statement over reflect values |
| GoDec.v | the reflection decoders and `indirect` once more, in the same way, over variables in memory |
| Utf8.v | unicode/utf8, `SafeReadUTF8String` |
| Builtin.v | types.go, u128.go codecs, interface.go |
| Text.v, Tools.v, U128.v, Json.v, ParseFloat.v | decimal and hexadecimal texts, tools.go, utils.go, methods of the number types, JSON, `strconv.ParseFloat` |
| Heck.v, Sha256.v, Sighash.v, Variant.v | heck.go, SHA-256, sighash.go, variant.go |
| GoHeck.v | heck.go once more, with readers, indices and slices |
| Encodings.v | type Encoding as a number, decoders with any encoding number, constructors |
| Alias.v | byte slices with sharing |
| AliasEnc.v | the methods of Encoder with byte slices that share memory, on a writer that keeps them |
| Zero.v | the reflection encoders with the IsZero of Go 1.22 |
| Cost.v | the reflection decoders with a count of their work |
| Embed.v | embedded fields: the methods a struct gets from them |
| Ops.v | client programs: sequences of method calls |
| Spec.v, LibSpec.v, JsonSpec.v, TagSpec.v, FloatSpec.v, OpsSpec.v, ShaSpec.v, AccSpec.v, SteadySpec.v, RecSpec.v, CostSpec.v, DynSpec.v, SizeSpec.v, LayoutSpec.v, SameSpec.v, SealedSpec.v, WriteSpec.v, EmbedSpec.v, AgainSpec.v, CallsSpec.v, ManySpec.v, MemSpec.v, BulkSpec.v, RelaySpec.v, CycleSpec.v, ErrSpec.v, MixSpec.v | independent wire format, representability, normal form; the library types; JSON grammars; struct tags; floating-point numbers, rounding and their texts; pairs of a writing and a reading call; SHA-256; the language of each type; types whose values settle; recursive types; when the work is bounded; interfaces in maps; sizes; common layouts; types written alike; unexported variants; which values can be encoded; promoted methods; types whose bytes stay; the calls of Write; how far below the cuts of mutually recursive types are; what a value takes up; what a value is good for when written; structs with interfaces that hold pointers |
| Check.v | executable versions of the conditions of Spec.v, for examples |
| Tests.v, TestsDec.v, TestsEnc.v, TestsBorsh.v, TestsMisc.v | the whole Go test suite of the repository (except benchmarks, bytecount and the JSON round trips of whole structs) replayed in the model: every table and every buffer of the *_test.go files, computed by the model and compared with what the Go tests expect |
| NumFacts, TyInd, KeyEq, EncFacts, EncWire, DecWire, RoundTrip, DecEq, DecWithin, DecLocal, DecBound, DecProps, DecSafe, SafeFacts, MapFacts, FieldFacts, EnumFacts, TrimFacts, TagFacts, TagText, TextFacts, JsonFacts, Utf8Facts, BuiltinFacts, HeckFacts, VariantFacts, NameFacts, AliasFacts, AliasEncFacts, LibFacts, JsonExact, FloatFacts, FloatRound, FloatExact, FloatJson, FloatKeys, OpsFacts, LimitFacts, DestFacts, GoEncFacts, GoDecFacts, IfaceFacts, GoHeckFacts, EncodingFacts, ShaFacts, AccFacts, AccLib, SteadyFacts, SteadyLib, RecFacts, RecEnc, RecEnds, RecEncEnds, CostFacts, CostBound, CostReach, DirectFacts, DynFacts, SizeFacts, ZeroFacts, SameFacts, LayoutFacts, MoreFacts, SealedFacts, WriteFacts, EmbedFacts, AgainFacts, AgainLib, CallsFacts, CallsLib, ManyEnc, ManyDec, MemFacts, MemLib, BulkFacts, BulkLib, RelayFacts, CycleFacts, ErrFacts, ErrEnc, ErrLib, MixFacts, EncProps, NumProps, RoundTripProps | lemmas |
| PropsCodec, PropsEnc, PropsNum, PropsDec, PropsSafe, PropsMaps, PropsFields, PropsText, PropsNames, PropsVariant, PropsAlias, PropsAliasEnc, PropsLib, PropsJson, PropsMore, PropsTags, PropsFloat, PropsOps, PropsLimits, PropsDest, PropsGo, PropsMisc, PropsAccept, PropsRec, PropsCost, PropsDirect, PropsDyn, PropsSize, PropsZero, PropsSame, PropsSealed, PropsWrite, PropsEmbed, PropsAgain, PropsCalls, PropsMany, PropsMem, PropsBulk, PropsRelay, PropsCycle, PropsErr, PropsMix | the theorems, `Print Assumptions`, examples |

## Properties: what is modelled, how it is proved

The specification side (`Spec.v`) is written without reference to the encoder
or decoder: `wire E t size order v` is the byte string prescribed by the
format, `ok E t size order v` says that `v` is representable, `back E t v` is
the normal form (what decoding returns).

| id | approach |
|---|---|
| C01-C03 | induction over `ty`: decode (pre ++ wire v ++ post) from position len pre = (back v, len pre + len wire); with C05 |
| C04 | induction over the list, from the position-independent form of C01-C03 |
| C05 | induction over `ty`: encode from any state under a non-failing writer appends `wire v` |
| C06, C52 | a decoder program logic (`stable`): predicate preserved by bind, proved for each primitive, then induction over `ty` |
| C07 | from C06/C09: a successful decode of a prefix would extend to the full data with a different end position; no panic by C09-style argument; the same for any accepted input |
| C08 | from C01-C03 with trailing bytes |
| C09, C10 | weakest-precondition style invariants over decoder programs, induction over `ty` |
| C11-C13 | every encoder program is a script of chunks independent of the writer (`scripted`), closed under bind; corollaries |
| C14, C15 | sorting lemma: sorted permutations with distinct keys are equal; insertion of distinct keys commutes |
| C16 | decoder invariant on slices |
| C17-C19 | arithmetic over 7-bit groups |
| C20, C21 | induction over the varint loop, zig-zag arithmetic |
| C22-C25, C27 | arithmetic and list lemmas over the primitive methods |
| C26 | model of UTF-8 decoding/encoding, induction over the string |
| C28-C32 | theorems about the struct/option/enum parts of `enc_val`/`dec_val` |
| C33 | induction over the words of the tag |
| C34-C37 | case analysis of the primitives; induction over operation sequences |
| C38, C39 | model of variant.go on top of the codec; `variant_into` on top of `Dest.v` for what is left after errors |
| C40 | concrete SHA-256 in Gallina, shown equal to a relational description by bits and integer roots; vectors of sighash_test.go |
| C41, C42 | model of heck.go, invariants of the scanning loop on ASCII strings |
| C43, C44 | list lemmas; decimal printing |
| C45-C47 | decimal / hexadecimal printing and parsing |
| C48 | decode with prior value: generalisation of C01-C03 |
| C49 | list lemmas |
| C50 | heap model of slices (base array, offset, length) |
| C51 | computation plus general theorem on the length prefix |
| C53 | the loops over the fields are a fold; the state carried over is the sizeof map and the extension flag |
| C54 | model of json.Unmarshal into int64 and bool |
| C55 | heap model of slices |
| C56 | bytes of the library types in LibSpec, computed without their methods; each method is shown to emit and read them |
| C57 | grammars in JsonSpec as inductive predicates; both directions against the scanning functions |
| C58 | grammar of conventional tags in TagSpec; both directions against the loop of Lookup |
| C59 | number denoted by a bit pattern and nearest-even rounding in FloatSpec; the pattern computed by division; both directions against the scanner |
| C60 | relation `exchange` between a writing call, a reading call, the bytes and the result (OpsSpec); induction over the sequence |
| C61 | the slice, map, pointer and text branches run on the specified bytes; witnesses for the refuted statements |
| C62 | the second model agrees with the first step by step (induction over types); invariants of the left value over all outcomes; cutting lemmas for fields, elements and entries |
| C63 | one generic switch convertible with each of the three transcriptions, then induction over the size of the type; fuel 3 * size suffices |
| C64 | relation between an action on one location of the memory and a `Dest.v` action, closed under the steps of the decoders; `indirect` by induction over the pointers of the type; then as C63 |
| C65 | a reader that has passed `pre` of `pre ++ rest` is the list `rest`; induction over it |
| C66 | programs that do not look at the encoding (`blind`) are closed under bind |
| C67 | the loop of `indirect` unfolded once per interface and pointer, then the lemmas of C64; rings by induction over the fuel; structs: each field is decoded by a computation that acts on the memory as the one on the value does (`MixFacts.acts`), by induction over the fields and the nesting of structs, in place, behind pointers or behind interfaces; what was written is read (`C67_struct_reads`) by C48 |
| C68 | attribute grammar in AccSpec (bytes, following bytes, value); relation `exact` between decoder programs and grammar rules, closed under bind; induction over `ty` |
| C69 | induction over `ty`: what the grammar of C68 accepts is `ok` and `canon`, and for strict types its bytes are `wire` |
| C70 | induction over `ty` relating a type to its deeper unrollings, outcomes equal up to `Deep`; induction on the number of unrollings with the bytes left (decoding) or the depth of the value (encoding) as measure; for types that mention each other, induction over the cut type with the bytes (or levels) in front of its cuts |
| C71 | the decoder once more over programs that carry a price, the same after erasure; the bill of a program (price against bytes used up) is closed under bind; induction over `ty` with the constant `toll` |
| C72 | the lemmas of C56 about each method, stated for any currentFieldOpt |
| C73 | mutual induction over the derivation of `sends`; independence from the dynamic values by induction over the fuel, outcomes equal up to `Stuck` |
| C74 | induction over types on the grammar of C68; `wire` of two encodings side by side |
| C75 | induction over types: the encoder with another IsZero on a value, and the old one on the value with forgotten zeros |
| C76 | the loop of `hex.Decode` with its result on errors; longest prefix of pairs of digits, in the grammar of C57 |
| C77 | an equational theory of typed values (`SameSpec.v`), sound for `wire` by induction on derivations; with C05 for Marshal and C01-C03 for Unmarshal |
| C78 | induction over types on the payload of an unexported variant; the field loops with all fields hidden |
| C79 | a predicate on encoder programs (succeeds exactly if, never gets stuck, panics only if) closed under bind; induction over `ty` |
| C80 | the search of `Embed.v` against Go's rule for selectors as an inductive definition; the methods called on the embedded field |
| C81 | induction over `ty`: what comes back (`back`) is `ok`, `canon`, and has the same `wire`; with C69's induction for values decoded from any input |
| C82 | the induction of C05 with lists of calls in place of bytes; non-emptiness by induction over `calls` alone |
| C83 | next to the price of C71, the slots of the result: each priced program pays for what it builds, closed under bind; induction over `ty`; the input that reaches the bound by C68 |
| C84 | "hands over at most n" for encoder programs, closed under bind, for all writers and outcomes; induction over `ty` with the weight of a slot; keys of maps by permutation of the entries |
| C85 | heap model of slices; `append` writes in the room between length and capacity or makes a new array; induction over the loop |
| C86 | each method extends the heap and hands over new arrays or the slice of the caller, with the chunks of the model without sharing; closed under bind; induction over the program |
| C87 | what a program can return, closed under bind; equal keys have the same equalities, so setting an entry keeps the keys apart; C83 and C84 |
| C88 | programs that never succeed, closed under what comes before and after; one lemma for each way encoding goes on |
| C89 | a logic of programs that keep the encoding and report only given names, by induction on the type; the same for encoders; witnesses for each row of the tables of `ErrSpec.v` |

Claims that are false of the code as one would first state them are proved in
the form in which they hold, next to a theorem `..._refuted` with a witness
for the form in which they do not.
