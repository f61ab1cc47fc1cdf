# Formal model of genelet/determined in Rocq (Coq 8.16.1)

This file says what is modelled, how each property of `properties.jsonl` is proved,
what is trusted, and where the code turned out to violate the property a user
would expect.

## 1. Layout

`rocq/theories/` (logical name `Verif`), one group of files per part of the code. The
`*Model.v` files hold the model and no proofs; the `*Spec.v` files hold the specifications, which
do not mention the model's helpers; the `Props*.v` files hold the theorems, each with
`Print Assumptions` and a concrete example.

| part of /repo | model | specification | proofs | theorems |
|---|---|---|---|---|
| shared helpers | `Base.v`, `GoType.v` | | | |
| `utils/tree.go` | `TreeModel.v`, `TreeConc.v` | `TreeSpec.v` | `TreeProofs.v`, `TreeConcProofs.v` | `PropsTree.v` (C01–C07) |
| `utils/tree.go`: memory accesses to the children of a node and its mutex | `TreeRace.v` | in `PropsRace.v` (`before`, `race`, `guarded`) | in `PropsRace.v` | `PropsRace.v` (C100) |
| `utils/util.go`: `CtyToExpression` | `LitModel.v` | in `PropsLit.v` (`carried`, `simple_collection`, `in_sight`) | in `PropsLit.v` | `PropsLit.v` (C101) |
| `utils/util.go`: `CtyToNative` on unknown and marked values | `NativeModel.v` | in `PropsNative.v` (`clear`, `number_in`, `known_as`, `same_entries`) | in `PropsNative.v` | `PropsNative.v`, `PropsNative2.v` (C102) |
| `utils/util.go`: `NativeToCty` on typed Go values | `GoValModel.v` | in `PropsGoVal.v` (`cty_type`, `well`, `nan_in`, `typeless`, `nothing`, `stands_for`) | in `PropsGoVal.v` | `PropsGoVal.v`, `PropsGoBack.v` (C103) |
| `utils/common.go` | `SpecModel.v` | `SpecSpec.v` | `SpecProofs.v` | `PropsSpec.v` (C08–C10) |
| `det/collect.go` | `CollectModel.v` | `CollectSpec.v` | `CollectProofs.v` | `PropsCollect.v` (C12, C13) |
| `det/util.go`, `det/unmarshal.go` | `DetModel.v` | `DetSpec.v`, `DetTotalSpec.v` | `DetProofs.v`, `DetSound.v`, `DetFrame.v`, `DetOrder.v`, `DetCor.v`, `DetTotal.v` | `PropsDet.v` (C11, C14–C23) |
| `dethcl/encoding.go`, `marshal.go` (maps), `mapslice.go` | `HclModel.v` | `HclSpec.v`, `HclGrammar.v` (texts and tokens as a grammar) | `PlainScan.v` (the scanner on texts without comments, which is enough for what is written), `HclScan.v`, `HclParse.v`, `HclLex.v`, `HclGrammarProofs.v`, `HclDecode.v`, `HclNumber.v`, `HclProofs.v`, `HclRound.v`, `HclFraction.v`, `HclClose.v`, `HclExact.v` | `PropsHcl.v` (C24–C28), `PropsFraction.v` (C85) |
| `dethcl/util.go` | `TagModel.v` | `TagSpec.v` | `TagProofs.v` | `PropsTag.v` (C29) |
| `dethcl/unmarshal.go` | `StructModel.v` | `StructSpec.v` | `Struct*.v` | `PropsStruct.v` (C30–C33, C55–C62) |
| `dethcl/marshal.go` (structs) | `MarshalModel.v` | `MarshalSpec.v` | `MarshalText.v`, `MarshalParse.v`, `MarshalData.v`, `MarshalProofs.v` | `PropsMarshal.v` (C63) |
| accepted texts | – | `FitSpec.v` | `FitText.v`, `FitProofs.v` | `PropsFit.v` (C65) |
| both directions | – | `RoundSpec.v` | `RoundProofs.v`, `RoundFits.v` | `PropsRound.v` (C64) |
| references: `utils/util.go` (ExpressionToCty, callToCty), `dethcl/mapslice.go`, `dethcl/unmarshal.go` with the tree | `VarModel.v` | `VarSpec.v` | `VarTree.v`, `VarProofs.v`, `VarGroup.v`, `VarBody.v`, `VarStruct.v`, `VarPlain.v`, `VarSession.v` | `PropsVar.v` (C76–C80) |
| `utils/util.go` | `CtyModel.v` | `CtySpec.v` | `CtyProofs.v`, `CtyProofs2.v` | `PropsCty.v` (C34, C35) |
| `internal/ipaddr` | `IpModel.v` | `IpSpec.v` | `IpProofs*.v` | `PropsIp.v` (C36–C39) |
| `internal/lang/funcs/cidr.go` | `CidrModel.v` | `CidrSpec.v` | `CidrProofs*.v` | `PropsCidr.v` (C40–C42) |
| `internal/lang/funcs` (collection, string, number, conversion, sensitive, redact) | `FuncModel.v` | `FuncSpec.v` | `FuncProofs.v`, `FuncList.v`, `FuncSum.v`, `FuncText.v`, `FuncUnknown.v`, `FuncLookup.v` | `PropsFunc.v`, `PropsFunc2.v`, `PropsFunc3.v`, `PropsFunc4.v` (C43–C52, C66–C69) |
| `internal/lang/funcs` (encoding, hashes of crypto) | `EncModel.v` | `EncSpec.v` | `EncProofs.v` | `PropsEnc.v` (C70, C71) |
| `internal/lang/funcs` (tostring, tonumber, tobool, list, map) | `CastModel.v` | `CastSpec.v` | `CastProofs.v` | `PropsCast.v` (C87) |
| `internal/lang/functions.go` (table of functions) | `TableModel.v` | in `PropsTable.v` | in `PropsTable.v` | `PropsTable.v` (C89) |
| parameters of the functions in `internal/lang/funcs` (flags for null, unknown and dynamic) | in their models | in `PropsNull.v` | in `PropsNull.v` | `PropsNull.v` (C90) |
| `internal/lang/funcs/number.go` (log, pow) | `NumberModel.v` | in `PropsNumber.v` | in `PropsNumber.v` | `PropsNumber.v` (C91) |
| `internal/lang/funcs/descriptions.go` | `DescModel.v` | in `PropsDesc.v` | in `PropsDesc.v` | `PropsDesc.v` (C93) |
| `TypeFunc` in `internal/lang/funcs/conversion.go`, `internal/lang/marks/marks.go` | `TypeModel.v` | `FuncSpec.v` | in `PropsType.v` | `PropsType.v` (C94) |
| `internal/lang/funcs/refinements.go` and its uses | `RefineModel.v` | in `PropsRefine.v` (`null`) | in `PropsRefine.v` | `PropsRefine.v` (C96) |
| the `Type` and `Impl` pairs of `internal/lang/funcs` | `CheckModel.v` | in `PropsCheck.v` (`instance_of`), `FuncSpec.v` | in `PropsCheck.v` | `PropsCheck.v` (C97) |
| the `AllowMarked` parameters of `internal/lang/funcs` and the marks go-cty takes off the others | `FuncModel.v` | in `PropsMarks.v` (`same_but_marks`, `all_known`), `FuncSpec.v` | in `PropsMarks.v` | `PropsMarks.v` (C98) |
| the `AllowUnknown` parameters of `internal/lang/funcs` and the results go-cty gives for unknown arguments | `FuncModel.v`, `CheckModel.v` | in `PropsUnknown.v` (`filled`, `unknown_value`), `instance_of` of `PropsCheck.v` | in `PropsUnknown.v` | `PropsUnknown.v` (C99) |
| `internal/lang/funcs/cidr.go` (cty functions, printed results) | `AddrModel.v`, `CidrFuncModel.v` | `AddrSpec.v` | `AddrProofs.v` | `PropsAddr.v` (C95) |
| `internal/lang/funcs` (timestamp, timecmp and timeadd of datetime) | `TimeModel.v` | `TimeSpec.v` | `TimeProofs.v`, `TimeAdd.v`, `TimeLoose.v` | `PropsTime.v` (C72, C81, C86, C88) |
| `internal/lang/funcs` (uuidv5, bcrypt and rsadecrypt of crypto) | `CryptoModel.v` | `CryptoSpec.v` | `CryptoProofs.v` | `PropsCrypto.v` (C82, C83) |
| `internal/lang/funcs` (fileset of filesystem) | `FilesetModel.v` | `PathSpec.v` | `FilesetProofs.v` | `PropsFileset.v` (C84) |
| `internal/lang/funcs` (filesystem, file hashes of crypto) | `PathModel.v`, `TemplateModel.v` | `PathSpec.v` | `PathProofs.v` | `PropsPath.v` (C73, C74), `PropsTemplate.v` (C75) |
| `convert`, `cmd/fmtconvert` | `JsonModel.v`, `ConvModel.v` | `JsonSpec.v` | `JsonProofs.v`, `JsonText.v`, `JsonOnly.v`, `ConvProofs.v` | `PropsConv.v` (C53, C54) |

Conventions: a Go map is an association list without duplicate keys, and its list
order is one possible iteration order, so a theorem for every list covers every
iteration order; "independent of iteration order" is stated with `Permutation`.
Go `error` and panic are explicit results (`Err`, `Panic`).  External code (encoding/json, the HCL
parser, go-cidr, cty) is either an explicit small model, named as such below, or a
Section variable, over which the theorem quantifies.

A theorem whose name ends in `_partial` proves the property under a guard that the code needs or
that the model needs; one that ends in `_refuted` proves that the code breaks the property in
full. A property for which there is such a refutation has status `partial` in `MANIFEST.json`,
with the guarded theorem beside it.

## 2. How each property is proved

- C01, C02 — node tree as a heap of nodes with identities; public operations
  addressed by node identity; refinement to an ordered dictionary of live paths, by
  induction over histories.
- C03 — soundness by induction on the tree; completeness fails because
  `FindNode` commits to the first child whose name matches.
- C04 — `Variables` against a declarative lookup specification.
- C05, C06 — interleaving state machines whose steps are the check, lock, append and
  unlock (resp. element shifts and element reads).  Invariants over all schedules.
- C07 — map update laws.
- C08, C09, C10 — `NewValue` on an inductive type of the accepted Go shapes, with the
  iteration orders in the input.
- C11 — `getFirstFromMap` against "minimum of the keys" for every permutation.
- C12, C13 — type graphs as an environment of named types; discovery as a fuelled DFS;
  soundness and completeness against an inductive reachability relation; termination
  characterised exactly.
- C14–C23 — `JsonUnmarshal` over JSON trees and typed Go values, the standard
  decoder being a Section variable; an inductive specification of the decoded value.
- C24–C28 — text-level model of the encoder, a lexer and parser for the HCL subset the
  encoder emits, and the generic decoder; round trip by induction on values.
  `HclGrammar.v` writes the same subset down as a grammar; the parser accepts exactly it.
- C29 — byte-level model of `tag2`.
- C30–C33, C55–C62 — field classification, block/spec resolution, call histories with the
  shared reference map, the regular-expression splitter, and re-parsing of block texts.
- C34, C35 — numbers as exact dyadic rationals with Go's big.Float accuracy rules.
- C36–C39 — byte-level parsers with checked indexing against a grammar.
- C40–C42 — addresses as integers; go-cidr modelled arithmetically.
- C43–C52, C66–C69 — cty values with unknowns, nulls and marks.
- C70, C71 — encodings as relations between bits and characters (RFC 4648, RFC 3629); the code computes them.
- C72 — the calendar as a relation "next day", counted from the first day of the year 0; timestamps as a grammar.
- C81 — timestamps as in C72; durations as a grammar of amounts and units with their nanoseconds; the sum is one of whole numbers.
- C82 — bytes in hexadecimal as a relation, the writings of a namespace as a grammar, the result bit by bit from the hash.
- C83 — the library's results; numbers as in C68, base 64 as in C70.
- C84 — paths by the places they lead to, as in C73.
- C86 — the parts of a timestamp in order, each with the texts taken for it and those out of range; a refusal is the first part where neither fits, with what is said of it.
- C87 — a grammar of numerals (sign, digits with a point, exponent of ten or two) with the number m·10^t·2^b each says; nearest number of 512 bits by distance; the digits of a whole number.
- C88 — the grammar of timestamps and the instant a text says (C72), cut to the second.
- C89 — the names described in `descriptions.go`, the names of the Go variables of the package in lower case, the directory a function is made for.
- C90 — the types of the parameters of each function, which argument belongs to which, the first argument that is null, without a type or of another type.
- C91 — the sign of a number and its place beside 0, 1 and the infinities; where logarithms and powers have no value.
- C92 — the text of a UUID (as for C82) and the bits of version 4 of RFC 4122.
- C93 — the number of arguments a call takes, the names in the table of functions.
- C95 — the grammars of addresses and prefixes (C36–C38), RFC 5952: groups without zeros in front, `::` for the first of the longest runs of zeros; whole numbers as m = z·2^k.
- C94 — the type of a value, the marks found in it at any depth (`marked_in`).
- C96 — a value that is null; the names of the functions that are refined, read off the source.
- C97 — a type that is an instance of another, as an inductive relation; well-typed values.
- C98 — values that differ in their marks only, as an inductive relation; arguments that are known.
- C99 — an argument and what it becomes once it is known, as an inductive relation; instances of types as for C97.
- C100 — the order of the Go memory model on the steps of an execution, by positions: own steps, and an Unlock before every later Lock; a race is two accesses it does not order.
- C101 — the same data, as an inductive relation between a value and what the expression for it evaluates to.
- C102 — `clear`: nothing the conversion looks at is unknown or marked, an inductive predicate on values; `number_in`: the numbers it meets; `known_as`: the values of the older model; `same_entries`: equal but for the order of map entries, `same_data` at any depth.
- C103 — `cty_type`: the cty type of a Go type, inductively; `well`: Go values whose elements have the type of elements; `nan_in`, `typeless`, `nothing`: a NaN inside, something without cty type inside, nil or a pointer to it; `stands_for`: the same data.
- C85 — a decimal text is its digits without the point and the number of places; results are compared by distance, on integers.
- C73, C74, C75 — a path means where walking by its names leads from a place; `Clean` gives the one shortest path with that meaning; a file system is a function of places.
- C76, C77 — what references mean is an inductive relation over paths of names, without a tree and without an order; decoding with the tree is shown to agree for every order, by an invariant on what each node of the tree shows to the root.
- C78–C80 — the same relation for calls and for several documents on one tree; documents of the C24 syntax embedded among those with references.
- C53, C54 — byte-level model of encoding/json composed with the HCL model; the command's
  flag parsing and decision table.
- C63 — text-level model of the struct encoder; what a value should be written as is an
  inductive relation between Go values and HCL items; the text is shown to parse to such items, by
  induction on values.
- C64 — C63 composed with the theorems on reading fields (C55–C58) and with C65 (the items such a
  value is written as fit its type): an inductive description of the values that come back, and an
  equivalence of values that looks at what the encoder writes.
- C65 — the converse of the theorems on reading: an inductive description of the items that fit a
  struct type, and by induction on the length of the text that the decoder finds no error. The text
  of a block's body or of an attribute, cut out of the document, parses to what the item holds (C62).

## 3. Trusted base

- Coq's kernel (8.16.1), and `coqchk`.
- The reading of the Go source recorded in the comments of the model files. Each definition
  cites the lines it models and says where it simplifies.
- The descriptions of external libraries listed here.

**Libraries.** The sources of go-cty, the HCL library, go-cidr, yaml.v3 and the Go standard
library are not available here. Wherever a comment says "library", the behaviour is written from
knowledge of the versions in go.mod and could not be compared with their text. Theorems that pass
through such a definition hold of the code only as far as that description is right:

| library | where | how |
|---|---|---|
| encoding/json (decoding into structs) | `DetModel.v` | parameter |
| encoding/json (generic data) | `JsonModel.v` | model: ASCII strings, whole numbers |
| hclsyntax scanner and parser | `HclModel.v` | model of the subset listed there; all else is refused with an error starting "unmodelled" |
| hclsyntax evaluator | `VarModel.v` | model: literals, references, templates, binary operators, tuples, objects, calls; conversion to text, operators and functions are parameters |
| reflect.Value.Call | `VarModel.v` | the outputs of a function are a parameter |
| gohcl (conversion into a Go field) | `StructModel.v` | parameter |
| gohcl.EncodeIntoBody, hclwrite | `MarshalModel.v` | model: ASCII strings, whole numbers; the alignment of object entries is a parameter |
| gocty.ToCtyValue, reflect.Value.IsZero, fmt | `MarshalModel.v` | parameters, with the facts in `library_ok` |
| go-cty values, function calls, equality | `FuncModel.v` | model; conversion, unification, number printing, and the marks of results that are unknown because the implementation was not called, are parameters |
| math/big | `CtyModel.v`, `FuncModel.v` | exact dyadic numbers, rounding to nearest even |
| big.ParseFloat (512 bits), fmt %f | `HclModel.v` | model: nearest even; six decimals, nearest |
| go-cidr, net, net/netip | `CidrModel.v`, `IpModel.v`, `AddrModel.v` | model on integers |
| encoding/base64, encoding/hex, net/url | `EncModel.v` | model |
| convert.Convert between primitive types, cty.ParseNumberVal, Float.Text | `CastModel.v` | model; parameters: numerals with an exponent of ten beyond ±248 or a result beyond 2^±2^30, and the text of fractions |
| time.Parse and Format for RFC 3339, Add, ParseDuration | `TimeModel.v` | model; the local clock and the floating arithmetic of fractions are parameters |
| google/uuid Parse, NewSHA1 and String | `CryptoModel.v` | model; SHA-1 is a parameter |
| filepath.Rel | `FilesetModel.v` | model, on names instead of bytes |
| doublestar.Glob | `FilesetModel.v` | parameter |
| bcrypt, private keys, RSA | `CryptoModel.v` | parameters, with the checks of bcrypt on its arguments |
| path/filepath, go-homedir, os | `PathModel.v` | model; the contents of the file system are a parameter |
| compress/gzip, hashes, x/text encodings, Unicode normalisation | `EncModel.v` | parameters; normalisation leaves ASCII alone |
| unicode/utf8 | `SpecModel.v`, `EncModel.v` | model, proved equal to the definition of UTF-8 |
| regexp | `StructModel.v` | the three patterns used, as byte functions |
| strings.Fields, Trim… | `TagModel.v` | model on ASCII |
| yaml.v3, file system | `ConvModel.v` | parameter |
| flag | `ConvModel.v` | model |
| sync.Mutex, memory model | `TreeConc.v`, `TreeRace.v` | sequentially consistent interleaving; for C100 the order of the Go memory model |

**Not modelled.** Protobuf plumbing (`determined.pb.go`);
the identity (pointer) of the capsules that `type` gives;
conditionals, for expressions, splats and
the syntax of references, operators, templates and calls (C76–C78 start from expression trees);
embedded pointers when HCL is read into a struct (its copies share what they point at);
what a program with a data race does beyond interleavings.

## 4. Findings

Each line is a theorem in a `Props*.v` file: a concrete input on which the code, as modelled, does
not do what the property says.

- `C01_empty_name_refuted` — `AddNode("")`/`GetNode("")` return the node itself, so the empty name is never a child.
- `C03_find_complete_refuted` — `FindNode` commits to the first child of a matching name and misses a match below a later one.
- `C05_unique_refuted` — two goroutines adding the same name both find no child and add one each: the check is outside the lock.
- `C06_reader_never_misses_refuted` — a reader that iterates while an earlier child is deleted skips the child shifted into its place.
- `C07_caller_function_kept_refuted` — a function the caller supplies under a default name is overwritten by the default.
- `C09_order_independent_refuted` — a two-level map spec with two entries of the same first key depends on map iteration order.
- `C09_empty_slice_refuted` — NewStruct with an explicit empty slice of maps panics: it looks at the first map whenever the slice is not nil.
- `C100_add_refuted` — `AddNode` of a new name races with every lookup of a child and with every other `AddNode`: the children are looked at without the mutex.
- `C100_delete_refuted` — so does `DeleteNode` of a child.
- `C101_refuted` — `CtyToExpression` panics on a list or map of scalars that is null, unknown or marked.
- `C101_type_refuted` — and makes a tuple of a list, an object of a map.
- `C102_refuted` — `CtyToNative` panics on marked values (a sensitive text) and on unknown numbers, lists, maps and objects.
- `C103_refuted` — `NativeToCty` panics when a function returns NaN.
- `C103_nil_refuted` — a nil slice of texts becomes null, a nil slice of interfaces an empty tuple.
- `C103_back_refuted` — a negative fraction a function returns is refused on its way to native data.
- `C10_keeps_every_entry_refuted` — and loses all but one of them: the inner map is overwritten.
- `C12_discovery_exact_refuted` — two reachable struct types of the same short name in different packages: the second, and all behind it, is not discovered.
- `C13_discovery_terminates_refuted` — discovery does not terminate on `type T []T`.
- `C13_recursive_map_field_refuted` — nor on a struct with a recursive map type.
- `C16_untouched_refuted` — a promoted field with the name of a field tagged `-` overwrites that field.
- `C20_first_class_default_refuted` — with an unknown first key, the second key is looked up among the entries of the smallest first key.
- `C21_list_on_map_refuted` — a list spec with several entries on a map field assigns classes by map iteration order.
- `C22_unchanged_on_error_refuted` — a failing `JsonUnmarshal` leaves the fields decoded before the failure.
- `C23_absent_keeps_value_refuted` — fields the JSON does not mention are reset to their zero value.
- `C24_refuted` — a map whose values are maps of different depth loses entries in the HCL round trip.
- `C24_empty_refuted` — the text of the empty map panics when it is read back.
- `C24_marker_refuted` — a key equal to the internal marker `NMRBRCKTNDTRMND` breaks the text.
- `C25_refuted` — strings are not escaped: a quote in a string injects attributes.
- `C25_backslash_refuted` — a backslash in a string comes back as an escape.
- `C25_newline_refuted` — a newline in a string gives text that does not parse.
- `C26_refuted` — zeros, false, empty strings and nulls inside a list come back as empty lists.
- `C27_refuted` — a map of maps inside a list element is written as invalid HCL.
- `C27_order_refuted` — a key `for` gives invalid text in some iteration orders only.
- `C27_nil_refuted` — a nil slice gives invalid text.
- `C28_refuted` — a name used both as attribute and block, or with different numbers of labels, loses one of them.
- `C29_refuted` — struct tag values that contain spaces are split.
- `C29_case_refuted` — a key `HCL` is taken for `hcl`.
- `C29_panic_refuted` — a tag value that ends in ` hcl:` panics.
- `C30_refuted` — two fields of the same name, one from an inlined struct, share one spec entry.
- `C30_comma_dash_refuted` — a field tagged `x,-` is decoded although it looks excluded.
- `C30_recursive_refuted` — a struct with an untagged pointer to itself overflows the stack.
- `C31_default_order_refuted` — the default class of a map spec depends on map iteration order (HCL).
- `C31_other_label_refuted` — a block with two labels may get a class listed under another first label.
- `C31_empty_list_refuted` — an empty list spec panics.
- `C32_spec_reuse_refuted` — a spec used with one reference map fails with another: the classes made up in the first call were stored in the spec.
- `C32_type_string_refuted` — a caller's reference under a type string is overwritten by an earlier call.
- `C33_refuted` — objects with nested braces are cut at the first closing brace.
- `C33_brace_in_text_refuted` — so are objects with a brace in a string.
- `C33_empty_object_refuted` — an empty object gives no block.
- `C33_no_space_refuted` — without a space after the equals sign the object is silently ignored.
- `C33_comma_refuted` — an object with several attributes on one line fails, since commas do not parse in a body.
- `C34_refuted` — negative fractions and integers beyond int64 are refused, and some fractions are rounded up to a float32.
- `C35_refuted` — a null becomes an empty map on the way to an evaluator value.
- `C35_merge_refuted` — two keys with the same Unicode normal form become one.
- `C38_contains_refuted` — `ParseCIDR` of an IPv4-mapped IPv6 address with a prefix below 96 gives a network that does not contain the address.
- `C40_complete_refuted` — `cidrsubnets` fails on prefixes at address zero and next to the IPv4-mapped range.
- `C41_host_refuted` — `cidrhost` leaves the prefix for IPv6 host numbers of more than 64 bits and for IPv4-mapped prefixes.
- `C41_subnet_refuted` — `cidrsubnet` leaves the prefix for negative newbits or netnum and for IPv6 numbers of more than 64 bits.
- `C42_ipv6_rejected_refuted` — `cidrnetmask` accepts IPv4-mapped IPv6 prefixes.
- `C46_null_refuted` — `index` refuses null although the list holds it.
- `C47_unknown_refuted` — if the library leaves the marks of parameters that take marks to the function also where it does not call it, lookup in an unknown sensitive map gives an unknown without marks.
- `C48_refuted` — `matchkeys` gives a known empty list while the search set is unknown.
- `C49_order_refuted` — `sum` depends on the order of the elements once the precision is exceeded.
- `C51_refuted` — messages of `lookup` contain a sensitive key.
- `C51_object_refuted` — in particular for objects.
- `C52_refuted` — `sensitive` drops every other mark of its argument.
- `C53_empty_list_refuted` — HCL to JSON to HCL turns an empty list into null.
- `C53_large_int_refuted` — changes integers of more than 53 bits.
- `C53_string_refuted` — and changes strings with a backslash.
- `C53_empty_refuted` — the empty document becomes a blank text, on which the decoder panics.
- `C53_null_refuted` — the JSON document `null` becomes `{}` through YAML.
- `C54_usage_refuted` — `fmtconvert -from hcl` without a file gives an error about equal formats instead of the usage.
- `C54_help_refuted` — `fmtconvert -h` exits with status 0.
- `C56_number_refuted` — a label attribute that is not a string panics.
- `C57_slice_block_refuted` — a block for a `[]interface{}` field is an error.
- `C59_refuted` — an attribute that is null is dropped silently.
- `C59_second_block_refuted` — so is every block after the first for a single field.
- `C60_error_refuted` — a failed HCL decode has changed the fields before the failure.
- `C63_refuted` — a struct with a pointer to a list of strings cannot be written.
- `C63_panics_refuted` — it panics; so do a nil embedded pointer, a nil pointer in a map, and a label whose kind is not in lower case.
- `C63_not_hcl_refuted` — a number or list in an interface field, a map whose first key is `for`, and generic data with other keys than identifiers, give text that is not HCL.
- `C63_named_scalar_refuted` — a string, number or boolean of a named type, in an interface or in a slice of slices, makes `encoding` and `shortDirect` call each other until the stack overflows, which ends the program.
- `C63_nested_map_refuted` — a field of type `map[string]map[string]interface{}`, and an array of zeros in a map, are written as text that is not HCL.
- `C63_string_pointer_refuted` — a string behind a pointer is written without quotes.
- `C63_label_injection_refuted` — labels are not escaped: one label can write two, or another block.
- `C63_left_out_refuted` — zero structs in a slice and the labels of the struct itself are left out.
- `C64_refuted` — a required attribute that is zero is left out of the text, which is then refused.
- `C64_rejected_refuted` — texts of Marshal that Unmarshal refuses or panics on: empty maps, pointers to generic maps, fields without a tag, pair-keyed maps of structs with labels.
- `C64_changed_refuted` — values that come back changed without an error: labels below map keys, zero structs in slices, empty slices.
- `C65_panics_refuted` — panics on texts that look right: an empty block for generic data, a map block without label, blocks for pointers to slices and for slices of pointers to pointers.
- `C65_comment_refuted` — a comment between the equals sign and an object for generic data makes the text refused.
- `C65_ignored_refuted` — a list attribute for a slice of pointers to numbers is accepted and lost.
- `C69_length_refuted` — `length` gives a known number for an unknown tuple or object, which may be null and is then refused.
- `C69_matchkeys_refuted` — `matchkeys` gives a known empty list while the search set is unknown.
- `C69_lookup_refuted` — `lookup` with an unknown default gives an element and later fails, if the default turns out not to convert.
- `C72_exact_refuted` — digits after the ninth of a fraction are ignored: timestamps that differ there compare as equal.
- `C73_recombine_refuted` — `dirname` and `basename` of a path that ends in a slash do not say the path again.
- `C74_redacted_refuted` — errors of the operating system, such as permission denied, name a sensitive path.
- `C74_hash_redacted_refuted` — the hash functions name a sensitive path even if the file is only missing.
- `C75_marked_path_refuted` — `templatefile` fails for every marked path: the text read has the marks and is used as if it had none.
- `C76_siblings_refuted` — attributes of one body that refer to each other get different values by the order of Go's maps.
- `C76_siblings_refused_refuted` — or the document is refused in some orders.
- `C76_blocks_refuted` — so are references between blocks of different types.
- `C76_list_refuted` — a reference to a list attribute gives a map of positions.
- `C76_null_refuted` — a reference to an attribute whose value is `null()` fails.
- `C76_hidden_refuted` — a value given beforehand hides blocks of the same name, also for references inside them.
- `C77_overwritten_refuted` — a key inside an attribute of a `map[string]interface{}` field replaces the attribute of that name for references in blocks.
- `C77_blocks_refuted` — a reference to another block works or fails by the order of the fields of the Go struct.
- `C77_siblings_refuted` — attributes of one body that refer to each other get different values by the order of Go's maps.
- `C77_field_refuted` — a field of type map[string]interface{} takes no reference: the document is refused although the reference has a value.
- `C77_shared_refuted` — blocks of one type without labels share one node: references inside the second see attributes of the first.
- `C78_null_argument_refuted` — a null argument of a Go function panics in reflect.
- `C78_not_a_function_refuted` — an entry of the function table that is not a function panics in reflect.
- `C78_number_key_refuted` — an object key that is not a text, as in `{ 1 = "a" }`, panics.
- `C78_inside_refuted` — a call inside a template is refused although the function is in the table.
- `C78_operand_refuted` — so is one inside a template that is an argument of a Go function.
- `C80_leak_refuted` — a document that refers to a name of an earlier document decoded with the same reference map is accepted.
- `C80_changed_refuted` — an attribute at the top of a document changes the value given beforehand under that name for later documents.
- `C81_fraction_refuted` — adding no time to a timestamp drops the fraction of its second.
- `C81_year_refuted` — one second after the last second of 9999 gives a text that no function takes as a timestamp.
- `C81_before_refuted` — nor is it before the year 0.
- `C81_machine_refuted` — the offset of the result depends on the clock of the machine: where it changes between the two instants, the same call gives another text.
- `C81_range_refuted` — a duration of 2^64 nanoseconds written in two halves counts as nothing instead of being refused.
- `C82_braces_refuted` — a namespace for uuidv5 may have any two characters in the place of the braces.
- `C82_secret_refuted` — the error of uuidv5 shows a sensitive namespace.
- `C83_cost_refuted` — a cost below 4 for bcrypt is replaced by 10 without notice.
- `C83_secret_refuted` — the error of rsadecrypt shows a sensitive text.
- `C84_directory_refuted` — fileset reads special characters in the name of the directory as part of the pattern.
- `C84_home_refuted` — fileset does not expand ~, which file does.
- `C84_secret_refuted` — an error of the system in fileset shows a sensitive path.
- `C85_lost_refuted` — fractions below half a millionth are written as 0.000000.
- `C85_negative_refuted` — negative fractions are refused in data and in text, though -1.0 is not.
- `C85_infinite_refuted` — a fraction above the float32 range is read as an infinite float32.
- `C86_loose_refuted` — an hour of one digit, a comma before the fraction and offsets up to 24:60 are taken though they are not RFC 3339.
- `C86_offset_refuted` — of an offset of 24:60 timeadd makes 25:00, which is refused.
- `C86_quoted_refuted` — a part out of range is reported with the text after it: cannot use "-01T00:00:00Z" as month.
- `C86_end_refuted` — where nothing is after it, it is reported as missing.
- `C86_segment_refuted` — the message that should never be used is used for text after a timestamp.
- `C86_secret_refuted` — a sensitive text that is no timestamp is shown in the message.
- `C87_words_refuted` — "1" and "0" are taken for booleans though the message says that only "true" and "false" are.
- `C87_decimal_refuted` — "1p3" is taken for the number 8 though the message asks for a decimal representation.
- `C87_infinite_refuted` — "Inf" is taken for a number.
- `C87_digits_refuted` — whole numbers of more than 512 bits lose digits: two of them become the same number.
- `C88_instant_refuted` — two instants of one second give the same text.
- `C88_zone_refuted` — a clock that is not whole minutes from UTC gives a text that says another instant.
- `C88_year_refuted` — after the year 9999 the text is no timestamp.
- `C89_missing_refuted` — templatefile, plantimestamp and type are described but not in the table.
- `C89_own_refuted` — for timeadd, parseint, log, pow and signum the table has the function of the library although the package has its own.
- `C91_digits_refuted` — log and pow convert their arguments to float64: pow(9007199254740993, 1) is 9007199254740992.
- `C92_version_refuted` — uuid writes 16 random bytes without setting the version and the variant: the result is no UUID of version 4 but by chance.
- `C93_total_refuted` — WithDescription panics for a function under a name whose description has another number of parameters.
- `C95_network_refuted` — the text of an IPv4-mapped network is that of an IPv4 network.

## 5. Assumptions listed by Print Assumptions

Every theorem of the `Props*.v` files is closed under the global context: no axioms, neither of the
standard library nor of this development. `coqchk` lists the constants of
`Coq.ssr.ssrunder.Under_rel`, which come with the standard library's ssreflect files through `Lia`
and are used by no theorem. Section variables are discharged: the theorems quantify over them.

## 6. Mutation tests

`seeded/LOG.jsonl` has one line per seeded error: a definition of the model was changed in a
scratch copy, so that a property becomes false, and the theorems that no longer compile were
recorded. Where a change went unnoticed, the theorem was tightened and the change was tried again.
