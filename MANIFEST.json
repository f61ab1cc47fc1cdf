{
 "claims": [
  {
   "property": "C01",
   "status": "partial",
   "theorems": [
    "C01_tree_refines_dictionary",
    "C01_siblings_unique",
    "C01_child_stays_until_deleted",
    "C01_empty_name_refuted"
   ],
   "note": "Full refinement to an ordered dictionary over all histories, sibling uniqueness and persistence of a child are proved for non-empty names. The property as stated is false for the empty name (GetNode(\"\") returns the receiver): C01_empty_name_refuted."
  },
  {
   "property": "C02",
   "status": "proved",
   "theorems": [
    "C02_delete_removes_exactly_that_child"
   ],
   "note": "For every reachable tree and every name."
  },
  {
   "property": "C03",
   "status": "partial",
   "theorems": [
    "C03_find_sound",
    "C03_find_complete_single_partial",
    "C03_find_complete_distinct_partial",
    "C03_find_complete_refuted"
   ],
   "note": "Soundness is proved in full. Completeness is false (C03_find_complete_refuted: the search commits to the first match); proved for single names and for trees without repeated names."
  },
  {
   "property": "C04",
   "status": "proved",
   "theorems": [
    "C04_reachable_trees_are_well_formed",
    "C04_variables_expose_exactly_the_tree"
   ],
   "note": "Both directions, for every well-formed tree, and every reachable heap unfolds to one."
  },
  {
   "property": "C05",
   "status": "partial",
   "theorems": [
    "C05_concurrent_add_loses_nothing",
    "C05_mutual_exclusion",
    "C05_no_deadlock",
    "C05_unique_if_names_distinct_partial",
    "C05_unique_refuted"
   ],
   "note": "No loss, mutual exclusion and progress for all schedules. Uniqueness is false (C05_unique_refuted: the check is outside the lock) and proved for distinct names. Interleaving at the granularity of check, lock, append, unlock; data-race memory effects are not modelled."
  },
  {
   "property": "C06",
   "status": "partial",
   "theorems": [
    "C06_reader_finds_earlier_child_partial",
    "C06_reader_never_misses_refuted"
   ],
   "note": "False as stated (C06_reader_never_misses_refuted); proved for children stored before the deleted one. Sequentially consistent interleavings of element reads and shifts."
  },
  {
   "property": "C07",
   "status": "partial",
   "theorems": [
    "C07_defaults_installed",
    "C07_caller_function_kept_refuted"
   ],
   "note": "Everything except the last clause is proved; a caller function with a default name is overwritten (C07_caller_function_kept_refuted)."
  },
  {
   "property": "C08",
   "status": "proved",
   "theorems": [
    "C08_shorthand_means_long",
    "C08_shorthand_positions",
    "C08_built_values_kept"
   ],
   "note": "Deep expansion of shorthands gives literally the same result, for every input including failing ones."
  },
  {
   "property": "C09",
   "status": "partial",
   "theorems": [
    "C09_field_name_check_is_utf8",
    "C09_succeeds_iff_well_formed",
    "C09_value_succeeds_iff_well_formed",
    "C09_never_panics",
    "C09_first_map",
    "C09_empty_slice_refuted",
    "C09_success_order_independent",
    "C09_structure_preserved_partial",
    "C09_order_independent_partial",
    "C09_order_independent_refuted"
   ],
   "note": "Success criterion, absence of panics and order independence of success are proved in full, and UTF-8 validity against its definition. Structure preservation and order independence of the result hold unless a two-level map has two entries with the same first key; without that condition they are false (C09_order_independent_refuted). NewStruct with an explicit empty slice of maps panics (C09_empty_slice_refuted)."
  },
  {
   "property": "C10",
   "status": "partial",
   "theorems": [
    "C10_keeps_last_visited_partial",
    "C10_keeps_every_entry_refuted"
   ],
   "note": "False as stated (C10_keeps_every_entry_refuted: the inner map is overwritten). What is kept is characterised exactly."
  },
  {
   "property": "C11",
   "status": "proved",
   "theorems": [
    "C11_default_is_smallest_key",
    "C11_order_independent"
   ],
   "note": "Smallest key byte-wise, and independence of the iteration order of the map."
  },
  {
   "property": "C12",
   "status": "partial",
   "theorems": [
    "C12_discovery_sound",
    "C12_discovery_exact_partial",
    "C12_discovery_exact_refuted"
   ],
   "note": "Soundness in full. Exactness (both names, all reachable types) when reachable struct types have distinct short names; false otherwise (C12_discovery_exact_refuted: a second type of the same short name and everything behind it is skipped). Generic type names (with dots) are outside the guard."
  },
  {
   "property": "C13",
   "status": "partial",
   "theorems": [
    "C13_discovery_terminates_iff_partial",
    "C13_discovery_terminates_refuted",
    "C13_recursive_map_field_refuted"
   ],
   "note": "False as stated: type T []T and recursive map types recurse forever (two refutations). Termination is characterised exactly."
  },
  {
   "property": "C14",
   "status": "proved",
   "theorems": [
    "C14_explicit_wins",
    "C14_discovered_otherwise",
    "C14_explicit_used"
   ],
   "note": "Lookup in the merged references, and the effect on a decoded field."
  },
  {
   "property": "C15",
   "status": "proved",
   "theorems": [
    "C15_without_spec_is_standard"
   ],
   "note": "Holds for any behaviour of encoding/json."
  },
  {
   "property": "C16",
   "status": "partial",
   "theorems": [
    "C16_hidden_untouched_partial",
    "C16_only_decodable_change_partial",
    "C16_untouched_refuted"
   ],
   "note": "Proved when no decodable (promoted) field shares the hidden field's name; false otherwise (C16_untouched_refuted: a promoted field of the same name writes the field tagged \"-\")."
  },
  {
   "property": "C17",
   "status": "proved",
   "theorems": [
    "C17_result_as_specified",
    "C17_succeeds",
    "C17_single_class",
    "C17_unknown_class_fails",
    "C17_field_text",
    "C17_embedded_text",
    "C17_json_name"
   ],
   "note": "Full recursive specification of the result, for any encoding/json behaviour, and success for every text the specification allows (C17_succeeds: classes given or discovered, all four spec forms, any nesting); reflection and encoding/json are parameters. Member selection (exact name, then case folded; fields of embedded structs and pointers by their names, C17_embedded_text) is modelled."
  },
  {
   "property": "C18",
   "status": "proved",
   "theorems": [
    "C18_list_spec"
   ],
   "note": "For every slice field and list spec."
  },
  {
   "property": "C19",
   "status": "proved",
   "theorems": [
    "C19_map_spec",
    "C19_order_independent"
   ],
   "note": "Keys, classes and defaults; result and success independent of the iteration order when no list spec with several entries meets a map field."
  },
  {
   "property": "C20",
   "status": "partial",
   "theorems": [
    "C20_map2_spec_partial",
    "C20_first_class_default_refuted"
   ],
   "note": "The rule the code follows is proved; the stated default is false when the first key is unknown (C20_first_class_default_refuted)."
  },
  {
   "property": "C21",
   "status": "partial",
   "theorems": [
    "C21_list_on_map_partial",
    "C21_list_on_map_some_class_partial",
    "C21_list_on_map_refuted"
   ],
   "note": "Proved for list specs with one entry; with several the class depends on the map iteration order (C21_list_on_map_refuted)."
  },
  {
   "property": "C22",
   "status": "partial",
   "theorems": [
    "C22_not_an_object_unchanged_partial",
    "C22_each_field_old_or_decoded_partial",
    "C22_unchanged_on_error_refuted"
   ],
   "note": "False as stated (C22_unchanged_on_error_refuted). Every field is either unchanged or fully decoded."
  },
  {
   "property": "C23",
   "status": "partial",
   "theorems": [
    "C23_plain_fields_partial",
    "C23_absent_keeps_value_refuted"
   ],
   "note": "False as stated (C23_absent_keeps_value_refuted): absent fields are reset to zero values."
  },
  {
   "property": "C24",
   "status": "partial",
   "theorems": [
    "C24_round_trip_partial",
    "C24_any_order",
    "C24_refuted",
    "C24_empty_refuted",
    "C24_marker_refuted"
   ],
   "note": "False in full: a map whose values are maps of different depth loses entries, the empty map panics when read back, and a key equal to the internal marker breaks the text (three refutations). Proved for the supported data of HclSpec.v, in every iteration order; fractions other than positive multiples of 1/64 in 24 bits (see C85), zeros and nulls in lists, nil maps and slices, and maps of maps inside list elements are outside it."
  },
  {
   "property": "C25",
   "status": "partial",
   "theorems": [
    "C25_quotable_partial",
    "C25_exact",
    "C25_refuted",
    "C25_backslash_refuted",
    "C25_newline_refuted"
   ],
   "note": "False in full: strings are not escaped, so a quote injects attributes and a backslash changes the value (refutations). Proved for every string without quote, backslash, control or non-ASCII characters and template markers. C25_newline_refuted: a newline in a string is among the failures. C25_exact: among the strings of printable characters and newlines (without interpolations) exactly those without quote, backslash and newline come back."
  },
  {
   "property": "C26",
   "status": "partial",
   "theorems": [
    "C26_list_partial",
    "C26_refuted"
   ],
   "note": "False in full: zeros, false, empty strings and nulls in a list come back as empty lists (refutation). Proved: exactly those do, all other scalars come back unchanged, for every list."
  },
  {
   "property": "C27",
   "status": "partial",
   "theorems": [
    "C27_supported_partial",
    "C27_refuted",
    "C27_order_refuted",
    "C27_nil_refuted"
   ],
   "note": "False in full: maps of maps inside list elements, a key 'for' in some iteration orders, and nil slices give invalid text (refutations). Proved for the supported data. Valid is said by the grammar of HclGrammar.v as well as by the parser."
  },
  {
   "property": "C28",
   "status": "partial",
   "theorems": [
    "C28_decode",
    "C28_decode_slice",
    "C28_text",
    "C28_document",
    "C28_complete",
    "C28_too_many_labels",
    "C28_nothing_lost_partial",
    "C28_refuted"
   ],
   "note": "Decoding is proved to give the specified value of every parsed body, to succeed on bodies that evaluate, and to refuse more than two labels. That nothing is lost is false when a name is used in two ways (refutation) and proved for uniform bodies. C28_decode_slice does the same for a list at the top. C28_text says which texts are parsed and as what, by a grammar of HCL text written apart from the scanner and parser (HclGrammar.v), in both directions; C28_document puts this together with the decoding (and says that a text without items is an empty map, or a panic when it is empty or blank). Comments and exponents are part of the grammar."
  },
  {
   "property": "C29",
   "status": "partial",
   "theorems": [
    "C29_tag_partial",
    "C29_absent_partial",
    "C29_name_partial",
    "C29_refuted",
    "C29_case_refuted",
    "C29_panic_refuted"
   ],
   "note": "False for every struct tag: values with spaces, other keys that match hcl ignoring case, and a panic when a value ends in ' hcl:' (three refutations). Proved for conventional tags whose values have no spaces and whose other keys do not read as hcl; absent hcl entries give empty names."
  },
  {
   "property": "C30",
   "status": "partial",
   "theorems": [
    "C30_partition_partial",
    "C30_one_class",
    "C30_some_class",
    "C30_only_exported",
    "C30_refuted",
    "C30_comma_dash_refuted",
    "C30_recursive_refuted"
   ],
   "note": "False in full: two fields of the same name (one from an inlined struct) share one spec entry, a field tagged 'x,-' is decoded, and a struct that contains itself through a pointer in an untagged field overflows the stack (three refutations). Proved when no two fields have one name: the four lists are exactly the four classes; the class is unique and exists for every readable tag; no unexported or excluded field is ever in a list."
  },
  {
   "property": "C31",
   "status": "partial",
   "theorems": [
    "C31_list",
    "C31_map",
    "C31_map2",
    "C31_single",
    "C31_default_order_refuted",
    "C31_other_label_refuted",
    "C31_empty_list_refuted"
   ],
   "note": "False in full: the default class of a map spec depends on map iteration order, a pair-labelled block may get a class of another first label, and an empty list spec panics (three refutations). Proved after a successful call, for fields given by blocks, by an attribute that is a list of objects (with the limits of C33), or by both: list, map, map2 and single specs give each block the class of its position or label or the default, decoded from the block's or object's own text."
  },
  {
   "property": "C32",
   "status": "partial",
   "theorems": [
    "C32_shared_ref_partial",
    "C32_spec_reuse_refuted",
    "C32_type_string_refuted"
   ],
   "note": "False in full: classes made up for the program's own types are stored in the caller's spec while their objects go to the caller's reference map, so the spec fails with another map; and a caller's entry under such a type string is overwritten (two refutations). Proved: if the caller's entries are not under type strings, any history of calls that share the reference map leaves later results unchanged. Type strings are assumed distinct for distinct types."
  },
  {
   "property": "C33",
   "status": "partial",
   "theorems": [
    "C33_split_partial",
    "C33_refuted",
    "C33_brace_in_text_refuted",
    "C33_empty_object_refuted",
    "C33_no_space_refuted",
    "C33_comma_refuted"
   ],
   "note": "False in full: nested braces, a closing brace in a string, empty objects, no space after the equals sign, objects on one line (five refutations). Proved for non-empty object texts without a closing brace, preceded by one character after the equals sign."
  },
  {
   "property": "C34",
   "status": "partial",
   "theorems": [
    "C34_int64_partial",
    "C34_fraction_partial",
    "C34_refused",
    "C34_too_large",
    "C34_result_partial",
    "C34_refuted"
   ],
   "note": "False as stated (C34_refuted): negative fractions and integers beyond int64 are refused, and fractions whose nearest float32 is above them come back rounded to it. C34_refused says exactly which float64 numbers are refused, C34_int64_partial covers the int64 integers, C34_fraction_partial the positive fractions, C34_result_partial every result. C34_too_large: numbers of 2^1024 and more never convert."
  },
  {
   "property": "C35",
   "status": "partial",
   "theorems": [
    "C35_stable_partial",
    "C35_comes_back_partial",
    "C35_succeeds_partial",
    "C35_nulls",
    "C35_keys",
    "C35_merge_refuted",
    "C35_refuted"
   ],
   "note": "False as stated (C35_refuted): a null becomes an empty map on the way in and is not dropped. Proved: identity on stable data, element-by-element correspondence for all data when the conversion succeeds, success when the numbers fit, and that the way back drops nulls and only nulls (C35_nulls). C35_keys: every key is a normal form; C35_merge_refuted: two keys with the same normal form become one."
  },
  {
   "property": "C36",
   "status": "proved",
   "theorems": [
    "C36_ipv4_exact",
    "C36_quad_unique"
   ],
   "note": "Accepted texts without a colon are exactly the dotted quads; bytes as written."
  },
  {
   "property": "C37",
   "status": "proved",
   "theorems": [
    "C37_ipv6_exact",
    "C37_unambiguous"
   ],
   "note": "Accepted texts are exactly quads or RFC 4291 colon texts; the denoted 16 bytes are returned and unique. :: stands for one or more zero groups."
  },
  {
   "property": "C38",
   "status": "partial",
   "theorems": [
    "C38_cidr_exact",
    "C38_address_in_block",
    "C38_contains_partial",
    "C38_contains_refuted"
   ],
   "note": "Acceptance, mask, zero host bits and membership in the address block are proved for every string. Go's IPNet.Contains holds exactly unless the text is an IPv6 form of an IPv4-mapped address with prefix < 96; the unrestricted claim is refuted."
  },
  {
   "property": "C39",
   "status": "proved",
   "theorems": [
    "C39_no_panic"
   ],
   "note": "All index and slice operations are checked in the model; no parser ever panics."
  },
  {
   "property": "C40",
   "status": "proved",
   "theorems": [
    "C40_subnets",
    "C40_complete_partial",
    "C40_complete_refuted"
   ],
   "note": "Every successful call returns, in order, disjoint networks of the requested lengths inside the prefix; they are the first-fit allocation. Conversely every first fit is found (C40_complete_partial) unless the prefix starts at address zero, meets the IPv4-mapped range or starts right after it, where the call fails (C40_complete_refuted). Depends on the go-cidr functions as modelled in CidrModel.v."
  },
  {
   "property": "C41",
   "status": "partial",
   "theorems": [
    "C41_host_partial",
    "C41_host_injective_partial",
    "C41_host_refuted",
    "C41_subnet_partial",
    "C41_subnet_disjoint_partial",
    "C41_subnet_refuted"
   ],
   "note": "Exact for prefixes that are not IPv4-mapped (hosts), non-negative newbits and netnum, and IPv6 numbers below 2^63 (hosts) or 2^64 (subnets). Refuted outside these guards: negative newbits or netnum and larger IPv6 numbers leave the prefix. Depends on the go-cidr functions as modelled in CidrModel.v."
  },
  {
   "property": "C42",
   "status": "partial",
   "theorems": [
    "C42_netmask",
    "C42_netmask_bits",
    "C42_ipv6_rejected_partial",
    "C42_ipv6_rejected_refuted",
    "C42_bad_prefix"
   ],
   "note": "The IPv4 mask is exact and texts that are no prefix are rejected. IPv6 prefixes are rejected unless they are IPv4-mapped (::ffff:a.b.c.d/n with n >= 96), which are accepted (C42_ipv6_rejected_refuted)."
  },
  {
   "property": "C43",
   "status": "proved",
   "theorems": [
    "C43_transpose",
    "C43_twice"
   ],
   "note": "For every map of lists of strings without nulls, whatever its iteration order: each value maps to the sorted keys that list it, with multiplicity, and transposing twice gives back the non-empty part of a map of sorted duplicate-free lists. Library behaviour (cty) is described from knowledge of it."
  },
  {
   "property": "C44",
   "status": "proved",
   "theorems": [
    "C44_alltrue",
    "C44_anytrue"
   ],
   "note": "For every well-typed list of booleans with marks, nulls and unknowns; may_be says which booleans an element may turn out to be. The parts of go-cty it passes through are described from knowledge of the library, not from its source."
  },
  {
   "property": "C45",
   "status": "proved",
   "theorems": [
    "C45_coalesce"
   ],
   "note": "Over every unification and conversion of the library for which the arguments convert to their common type. The parts of go-cty it passes through are described from knowledge of the library, not from its source."
  },
  {
   "property": "C46",
   "status": "partial",
   "theorems": [
    "C46_index_partial",
    "C46_null_refuted"
   ],
   "note": "Proved for lists and tuples of wholly known values whose types are fixed, and a value that is not null. False for null, which is refused even if the list holds it (C46_null_refuted). For lists with unknown elements see C69. The parts of go-cty it passes through are described from knowledge of the library, not from its source."
  },
  {
   "property": "C47",
   "status": "partial",
   "theorems": [
    "C47_lookup_partial",
    "C47_found",
    "C47_arity",
    "C47_unknown",
    "C47_unknown_refuted"
   ],
   "note": "Proved for known maps, objects and keys with any marks and any default. For unknown maps and keys the marks of the result are given by the library, which is a parameter of the model: C47_unknown says that nothing is lost if the library keeps the marks of the arguments, C47_unknown_refuted that they are lost if it leaves the marks of such parameters to the function. The parts of go-cty it passes through are described from knowledge of the library, not from its source."
  },
  {
   "property": "C48",
   "status": "partial",
   "theorems": [
    "C48_filter_partial",
    "C48_lengths",
    "C48_refuted"
   ],
   "note": "Proved for known keys and search sets: the result lists, in order, exactly the values whose key equals something in the search set; lengths that differ are an error. False with unknowns in the search set: the result is a known empty list (C48_refuted). Conversion to the common type is a parameter."
  },
  {
   "property": "C49",
   "status": "partial",
   "theorems": [
    "C49_one",
    "C49_sum_partial",
    "C49_sum_succeeds",
    "C49_sum_empty",
    "C49_sum_bad",
    "C49_sum_shape",
    "C49_order_refuted"
   ],
   "note": "one: proved for wholly known lists, sets and tuples. sum: exact when the digits fit the precision of the numbers, always succeeds on finite numbers, and fails on empty, null, non-convertible and non-sequence arguments. False beyond the precision: 64-bit numbers summed in another order give another result (C49_order_refuted, relying on the library's rounding of big.Float sums). For unknowns see C69."
  },
  {
   "property": "C50",
   "status": "proved",
   "theorems": [
    "C50_unknown",
    "C50_known"
   ],
   "note": "A known answer is right for every string that begins with the known prefix; strings are compared as bytes. The parts of go-cty it passes through are described from knowledge of the library, not from its source."
  },
  {
   "property": "C51",
   "status": "partial",
   "theorems": [
    "C51_redact",
    "C51_lookup_partial",
    "C51_object_refuted",
    "C51_refuted",
    "C51_parseint",
    "C51_parseint_base",
    "C51_conversions"
   ],
   "note": "False as stated: looking up a missing sensitive key in an object puts the key into the message (C51_object_refuted, C51_refuted). Proved for redaction, lookup in maps, parseint and the conversion functions, as independence of the message from the value. The parts of go-cty it passes through are described from knowledge of the library, not from its source. C51_parseint_base: a sensitive base is not in the message either."
  },
  {
   "property": "C52",
   "status": "partial",
   "theorems": [
    "C52_sensitive_partial",
    "C52_refuted",
    "C52_nonsensitive",
    "C52_round_trip_partial"
   ],
   "note": "sensitive drops every other mark at the top of the value (C52_refuted); the value itself is unchanged. nonsensitive removes exactly the mark, at the top only. The round trip is proved for values without marks at the top. The parts of go-cty it passes through are described from knowledge of the library, not from its source."
  },
  {
   "property": "C53",
   "status": "partial",
   "theorems": [
    "C53_hcl_json_hcl_partial",
    "C53_empty_list_refuted",
    "C53_large_int_refuted",
    "C53_string_refuted",
    "C53_empty_refuted",
    "C53_json_yaml_json_partial",
    "C53_null_refuted",
    "C53_json_round_trip",
    "C53_json_text",
    "C53_json_text_only"
   ],
   "note": "HCL to JSON to HCL is proved to succeed and preserve the data, for data HCL text can hold (as in C24) that JSON holds too: ASCII strings without escapes, whole numbers of at most 53 bits, no empty list. JSON to YAML to JSON is proved for every document whose data yaml.v3 reads back as written (yaml.v3 itself is a parameter). The codec round trip of encoding/json is proved on its model, and that it reads exactly the JSON texts of objects (ASCII, integers within the range of float64; any blanks, escapes and repeated names), and the text null, as what they say. False in full: the empty document becomes a text the decoder panics on, empty lists become null, large integers and strings with escapes change, the JSON document null becomes an empty object. encoding/json is modelled for ASCII strings and whole numbers only."
  },
  {
   "property": "C54",
   "status": "partial",
   "theorems": [
    "C54_converts",
    "C54_otherwise",
    "C54_usage_partial",
    "C54_bad_flags",
    "C54_success",
    "C54_usage_refuted",
    "C54_help_refuted"
   ],
   "note": "Proved for every argument list: the six pairs convert, everything else leaves standard output empty with a nonzero status, status 0 only after a conversion or a request for help. False in full: equal formats without a file give an error instead of the usage (so does -from hcl alone), and -h exits with 0. The flag package is described by a small model, YAML and the file system are parameters."
  },
  {
   "property": "C55",
   "status": "proved",
   "theorems": [
    "C55_direct_field",
    "C55_attribute_field"
   ],
   "note": "For claimed fields with distinct names and tags; gohcl's conversion of a value is a parameter."
  },
  {
   "property": "C56",
   "status": "partial",
   "theorems": [
    "C56_label_field",
    "C56_number_refuted"
   ],
   "note": "Proved after a successful call; a label attribute that is not a string panics (refutation)."
  },
  {
   "property": "C57",
   "status": "partial",
   "theorems": [
    "C57_generic_field",
    "C57_slice_block_refuted"
   ],
   "note": "Proved after a successful call; a block for a []interface{} field is an error (refutation)."
  },
  {
   "property": "C58",
   "status": "proved",
   "theorems": [
    "C58_own_type",
    "C58_pairs"
   ],
   "note": "After a successful call, for fields given by blocks or by an attribute with objects (with the limits of C33), and a reference map with no entry of the caller under a type string; maps with pairs as keys included (C58_pairs)."
  },
  {
   "property": "C59",
   "status": "partial",
   "theorems": [
    "C59_all_used_partial",
    "C59_refuted",
    "C59_second_block_refuted"
   ],
   "note": "False in full: attributes that are null and any block after the first for a single field are dropped (two refutations). Proved: every attribute that is not null and every block type is claimed by a field."
  },
  {
   "property": "C60",
   "status": "partial",
   "theorems": [
    "C60_other_fields",
    "C60_error_refuted"
   ],
   "note": "Proved for every outcome: fields at other paths than those of claimed tags in the document keep their value. A failed call may have changed the fields before the failure (refutation)."
  },
  {
   "property": "C61",
   "status": "proved",
   "theorems": [
    "C61_nesting"
   ],
   "note": "With fuel above the length of the text, more fuel changes nothing, so the recursion depth is bounded by the text. Recursion over a recursive Go type is a separate matter (C30)."
  },
  {
   "property": "C62",
   "status": "proved",
   "theorems": [
    "C62_file",
    "C62_document",
    "C62_block_text",
    "C62_attribute_text"
   ],
   "note": "For the modelled part of the HCL syntax, which HclGrammar.v writes down as a grammar (C62_document)."
  },
  {
   "property": "C63",
   "status": "partial",
   "theorems": [
    "C63_struct_written_partial",
    "C63_refuted",
    "C63_panics_refuted",
    "C63_not_hcl_refuted",
    "C63_named_scalar_refuted",
    "C63_nested_map_refuted",
    "C63_string_pointer_refuted",
    "C63_label_injection_refuted",
    "C63_left_out_refuted"
   ],
   "note": "Proved for every value that can_write describes (labels, attributes, pointers to numbers, generic data, nested structs, pointers, structs and pointers in interfaces, slices and maps of these, embedded structs and pointers to structs, and slices and maps with types inside slices and maps; nesting unbounded): Marshal succeeds and its text parses to the items that the fields stand for. False in full: some values panic, strings and numbers of named types overflow the stack in some places, some give text that is no HCL, labels and strings behind pointers are not quoted (refutations). The text is also shown to be in the grammar of HclGrammar.v."
  },
  {
   "property": "C64",
   "status": "partial",
   "theorems": [
    "C64_comes_back_partial",
    "C64_any_text_partial",
    "C64_refuted",
    "C64_rejected_refuted",
    "C64_changed_refuted"
   ],
   "note": "Proved for every value that can be written (C63) and that returns describes (tagged fields with distinct names; labels all given or none, below a map key the first label being the key; scalars, lists and maps of scalars, pointers to numbers, generic data, nested structs, pointers, slices, string-keyed maps and pair-keyed maps of structs (below a pair the structs have no labels), embedded structs; zero attributes optional; nesting unbounded): the text is accepted, whatever earlier calls left in the reference map, and what is read is the struct, field by field. False in full: some texts are refused or make Unmarshal panic, and some values come back changed (refutations). C64_any_text says the same of any text with the right items and without comments before values. What the libraries do with attributes is a hypothesis."
  },
  {
   "property": "C65",
   "status": "proved",
   "theorems": [
    "C65_accepted",
    "C65_panics_refuted",
    "C65_comment_refuted",
    "C65_ignored_refuted"
   ],
   "note": "For every text whose items fit the type (inductive description of what fits, of labels, attributes, null attributes, generic data, single structs, slices and maps of structs, pair-keyed maps and inlined structs; nesting unbounded), whatever the target held and earlier calls left in the reference map. Comments may stand anywhere but between an equals sign and the value. Refutations show near misses: texts that panic, a comment before an object for generic data (refused) and an attribute that is accepted but lost."
  },
  {
   "property": "C66",
   "status": "proved",
   "theorems": [
    "C66_value",
    "C66_only",
    "C66_no_panic"
   ],
   "note": "Numerals are described independently of the parser (place value over the list of digits). big.Int.SetString and gocty are described from knowledge of the libraries. Note that CoreFunctions registers go-cty's own parseint instead of this function."
  },
  {
   "property": "C67",
   "status": "proved",
   "theorems": [
    "C67_endswith",
    "C67_strcontains",
    "C67_replace",
    "C67_replace_same",
    "C67_replace_empty",
    "C67_regexp",
    "C67_arity"
   ],
   "note": "Strings as bytes; strings.ReplaceAll is described from knowledge of the library and shown to be the declarative replacement, which is unique. The regular-expression library is a parameter. The empty substring is modelled but not part of the property. C67_replace_empty: what replacing the empty text gives."
  },
  {
   "property": "C68",
   "status": "proved",
   "theorems": [
    "C68_length",
    "C68_length_unknown",
    "C68_length_refused",
    "C68_signum",
    "C68_signum_refused"
   ],
   "note": "The number of graphemes is a parameter. signum is the package's own function, which CoreFunctions replaces by go-cty's."
  },
  {
   "property": "C69",
   "status": "partial",
   "theorems": [
    "C69_index",
    "C69_sum",
    "C69_one",
    "C69_alltrue",
    "C69_anytrue",
    "C69_transpose",
    "C69_coalesce",
    "C69_lookup",
    "C69_lookup_default",
    "C69_matchkeys",
    "C69_length",
    "C69_length_refuted",
    "C69_matchkeys_refuted",
    "C69_lookup_refuted"
   ],
   "note": "Proved for index, sum, one, alltrue, anytrue, transpose, coalesce, length and lookup, for arguments whose types are known, with any marks. For index the sets inside the arguments are to be known, for coalesce and for lookup with a default the conversions of go-cty are to have the same property, and the default is to convert in the end where a map is looked up in (C69_lookup_default). For matchkeys it holds while the search set is wholly known and has the type of the keys (C69_matchkeys). False for matchkeys with unknown values in the search set (C69_matchkeys_refuted), for lookup with a default that turns out not to convert (C69_lookup_refuted) and for length of an unknown tuple that turns out to be null (C69_length_refuted). Only the shapes are compared, not the marks. For arguments unknown as a whole every function of the package is in C99."
  },
  {
   "property": "C70",
   "status": "proved",
   "theorems": [
    "C70_encode",
    "C70_decode",
    "C70_only",
    "C70_one_meaning",
    "C70_round_trip",
    "C70_redacted",
    "C70_text",
    "C70_text_refused",
    "C70_gzip"
   ],
   "note": "base64decode also ignores line ends and leftover bits, as the library does; both are part of the statement. Unicode normalisation, gzip and the text encodings are parameters, the first assumed to leave ASCII alone. encoding/base64 and utf8.Valid are described from knowledge of the library and shown to be the relations of RFC 4648 and RFC 3629. What the functions with a text encoding refuse, and with which message: C70_text_refused."
  },
  {
   "property": "C71",
   "status": "proved",
   "theorems": [
    "C71_urlencode",
    "C71_injective",
    "C71_hash_hex",
    "C71_hash_base64"
   ],
   "note": "url.QueryEscape and hex.EncodeToString are described from knowledge of the library; the hash itself is a parameter."
  },
  {
   "property": "C72",
   "status": "partial",
   "theorems": [
    "C72_calendar",
    "C72_one_meaning",
    "C72_compare",
    "C72_exact",
    "C72_only",
    "C72_exact_refuted"
   ],
   "note": "The instant is exact to the nanosecond; C72_exact_refuted: with more digits two instants that differ compare as equal. time.Parse is described from knowledge of the library; what it takes beyond RFC 3339, and what is said about the rest, is C86."
  },
  {
   "property": "C73",
   "status": "partial",
   "theorems": [
    "C73_one_shortest",
    "C73_dirname",
    "C73_dirname_none",
    "C73_basename",
    "C73_basename_none",
    "C73_recombine",
    "C73_recombine_refuted",
    "C73_abspath",
    "C73_pathexpand_same",
    "C73_pathexpand_home",
    "C73_pathexpand_backslash",
    "C73_pathexpand_user"
   ],
   "note": "C73_recombine_refuted: for a path that ends in a slash dirname and basename do not say the path again (a/ gives a and a). Unix paths; the meaning of a path is where its names lead without symbolic links. path/filepath and go-homedir are described from knowledge of the library."
  },
  {
   "property": "C74",
   "status": "partial",
   "theorems": [
    "C74_file",
    "C74_base64",
    "C74_hash",
    "C74_exists",
    "C74_no_home",
    "C74_redacted",
    "C74_messages",
    "C74_redacted_refuted",
    "C74_hash_redacted_refuted"
   ],
   "note": "C74_redacted_refuted, C74_hash_redacted_refuted: errors of the operating system other than a missing file, and any error of the hash functions, name a sensitive path. The contents of the file system are a parameter; a ~ in front of a path stands for the home directory, and is an error before another user's name or if there is no home directory (C74_no_home); C74_messages lists everything that is said about a sensitive path. For fileset see C84."
  },
  {
   "property": "C75",
   "status": "partial",
   "theorems": [
    "C75_render",
    "C75_functions",
    "C75_undefined",
    "C75_refused",
    "C75_marked_path_refuted"
   ],
   "note": "Variables that are no map, that have an unusable name, or that lack a name of the template, are refused. C75_marked_path_refuted: a marked path always gives an error, because the text read, which has the marks of the path, is used without unmarking it (a panic that the library turns into an error). Templates, their parsing and evaluation are parameters. templatefile is not in the table of functions."
  },
  {
   "property": "C76",
   "status": "partial",
   "theorems": [
    "C76_lexical",
    "C76_one_meaning",
    "C76_siblings_refuted",
    "C76_siblings_refused_refuted",
    "C76_blocks_refuted",
    "C76_list_refuted",
    "C76_null_refuted",
    "C76_hidden_refuted",
    "C76_reference"
   ],
   "note": "Holds for documents in which references go to enclosing bodies, values have other names than the types and labels of blocks around them, and nothing is called var (well_named). False in full: attributes of one body, and blocks of different types, that refer to each other are decoded or refused, or get different values, by the order of Go's maps (C76_siblings_refuted, C76_siblings_refused_refuted, C76_blocks_refuted); a list is seen as a map of positions (C76_list_refuted); null() cannot be referred to (C76_null_refuted); a given value hides the blocks of that name (C76_hidden_refuted). The evaluator of hclsyntax is modelled; conversion to text and operators are parameters. C76_reference says exactly when a reference has a value, and which."
  },
  {
   "property": "C77",
   "status": "partial",
   "theorems": [
    "C77_lexical",
    "C77_overwritten_refuted",
    "C77_blocks_refuted",
    "C77_siblings_refuted",
    "C77_shared_refuted",
    "C77_field_refuted"
   ],
   "note": "Holds under the same conditions, and if the keys of attributes that go to map[string]interface{} and []interface{} fields are not names of attributes of that body. False in full: C77_overwritten_refuted (such a key replaces the attribute), C77_blocks_refuted (by the order of the struct's fields), C77_siblings_refuted (by the order of Go's maps), C77_shared_refuted (blocks of one type without labels share their names), C77_field_refuted (a reference for a map[string]interface{} field is refused). Only the values and the tree are in this model; what is done with them is in C55-C58."
  },
  {
   "property": "C78",
   "status": "partial",
   "theorems": [
    "C78_value",
    "C78_error",
    "C78_arity",
    "C78_missing",
    "C78_no_panic",
    "C78_null_argument_refuted",
    "C78_not_a_function_refuted",
    "C78_number_key_refuted",
    "C78_inside_refuted",
    "C78_operand_refuted"
   ],
   "note": "Values, errors, arity and missing functions as stated, for calls that are a value of their own, an element of a tuple or object, or an argument. False: a null argument of a Go function, a table entry that is not a function and a key of an object that is not a text panic (C78_null_argument_refuted, C78_not_a_function_refuted, C78_number_key_refuted); a call inside a template or operator is refused although the function is there (C78_inside_refuted, C78_operand_refuted). C78_no_panic is for functions of go-cty and objects with literal keys."
  },
  {
   "property": "C79",
   "status": "proved",
   "theorems": [
    "C79_plain"
   ],
   "note": "For the syntax of HclModel.v, through its parser, and any values, functions and orders."
  },
  {
   "property": "C80",
   "status": "partial",
   "theorems": [
    "C80_calls",
    "C80_alone",
    "C80_leak_refuted",
    "C80_changed_refuted"
   ],
   "note": "Holds for documents whose references are to enclosing bodies or given values, with the naming conditions of C76 and C77 over all the documents together. False in full: the tree stays in the map, so a document is decoded or refused by what was decoded before (C80_leak_refuted), and an attribute at the top of a document changes a given value of that name for later ones (C80_changed_refuted)."
  },
  {
   "property": "C81",
   "status": "partial",
   "theorems": [
    "C81_add",
    "C81_zone",
    "C81_only",
    "C81_fraction_refuted",
    "C81_year_refuted",
    "C81_before_refuted",
    "C81_machine_refuted",
    "C81_range_refuted"
   ],
   "note": "The sum of the instants, less its fraction of a second, for durations that are whole nanoseconds and fit 64 bits, sums within the years 0 to 9999, and a local clock that runs on whole minutes. False in full: the fraction is lost (C81_fraction_refuted), after the year 9999 and before the year 0 the result is no timestamp (C81_year_refuted, C81_before_refuted), the offset depends on the clock of the machine (C81_machine_refuted), and 2^64 ns in two halves pass for nothing (C81_range_refuted). time.Parse, Add, Format and ParseDuration are described from knowledge of them; the arithmetic with floating numbers is a parameter. The table of functions has the library's timeadd in place of this one."
  },
  {
   "property": "C82",
   "status": "partial",
   "theorems": [
    "C82_uuidv5",
    "C82_writing",
    "C82_different",
    "C82_only",
    "C82_braces_refuted",
    "C82_secret_refuted"
   ],
   "note": "For every hash of 20 bytes and every way to write a namespace. False in full: what stands in the place of the braces is not looked at (C82_braces_refuted), and the message of a refusal shows a sensitive namespace (C82_secret_refuted). google/uuid is described from knowledge of it; SHA-1 is a parameter."
  },
  {
   "property": "C83",
   "status": "partial",
   "theorems": [
    "C83_default",
    "C83_cost",
    "C83_refused",
    "C83_rsadecrypt",
    "C83_rsa_only",
    "C83_cost_refuted",
    "C83_secret_refuted"
   ],
   "note": "The hash of passwords, private keys and RSA are parameters; the checks of the library on password and cost are described from knowledge of it. False in full: costs below 4 are replaced by 10 (C83_cost_refuted), and the message of a refusal of rsadecrypt shows a sensitive text (C83_secret_refuted)."
  },
  {
   "property": "C84",
   "status": "partial",
   "theorems": [
    "C84_fileset",
    "C84_below",
    "C84_refused",
    "C84_directory_refuted",
    "C84_home_refuted",
    "C84_secret_refuted"
   ],
   "note": "The search (doublestar.Glob) and the file system are parameters. False in full: special characters in the directory are read as part of the pattern (C84_directory_refuted), ~ is not the home directory as it is for file (C84_home_refuted), and an error of the system names a sensitive path (C84_secret_refuted). filepath.Rel is described from knowledge of it."
  },
  {
   "property": "C85",
   "status": "partial",
   "theorems": [
    "C85_literal",
    "C85_exact",
    "C85_read",
    "C85_exponent",
    "C85_plain",
    "C85_back",
    "C85_close",
    "C85_near",
    "C85_lost_refuted",
    "C85_negative_refuted",
    "C85_infinite_refuted"
   ],
   "note": "False in full: fractions below half a millionth come back as 0 (C85_lost_refuted), negative ones are refused (C85_negative_refuted), and those above the float32 range become infinite (C85_infinite_refuted). Proved: literals are read as a nearest number of 512 bits; positive multiples of 1/64 in 24 bits come back; every positive fraction comes back as what its nearest millionths read as, at most four millionths further from itself than any float32 is (C85_close), so within four millionths if it is a float32 (C85_near). big.ParseFloat and %f are described from knowledge of the library; C85_exponent does literals with an exponent."
  },
  {
   "property": "C86",
   "status": "partial",
   "theorems": [
    "C86_either",
    "C86_one",
    "C86_timestamps",
    "C86_compare",
    "C86_add",
    "C86_message",
    "C86_loose_refuted",
    "C86_offset_refuted",
    "C86_quoted_refuted",
    "C86_end_refuted",
    "C86_segment_refuted",
    "C86_secret_refuted"
   ],
   "note": "Proved: every text is read as one instant or refused with one message, and which; timestamps are read as what they say; everything read is compared, and added to like a timestamp where its offset is less than a day. False in full: some texts that are no timestamps are taken (C86_loose_refuted), and of one of them timeadd makes a text that is refused (C86_offset_refuted); a part out of range is reported with the text after it (C86_quoted_refuted), or as missing (C86_end_refuted); the message that should never be used is used (C86_segment_refuted); a sensitive text is shown (C86_secret_refuted). time.Parse is described from knowledge of the library; %q is a parameter."
  },
  {
   "property": "C87",
   "status": "partial",
   "theorems": [
    "C87_tonumber",
    "C87_exact",
    "C87_infinite",
    "C87_no_number",
    "C87_tobool",
    "C87_tostring",
    "C87_infinity_back",
    "C87_bool_back",
    "C87_number_back",
    "C87_normal",
    "C87_same",
    "C87_null",
    "C87_unrelated",
    "C87_unknown",
    "C87_gone",
    "C87_words_refuted",
    "C87_decimal_refuted",
    "C87_infinite_refuted",
    "C87_digits_refuted"
   ],
   "note": "False in four ways, each with a witness: \"1\" and \"0\" pass for booleans, numerals with a binary exponent and infinities pass for numbers, whole numbers beyond 512 bits lose digits. Proved for all texts, marks and values: which texts tonumber takes and the nearest number it gives, the exact refusal of every other text (without the text if sensitive), tobool, tostring of booleans and whole numbers, both round trips, nulls, unknown values, values of the type itself, pairs of types without a conversion, and that list and map refuse everything. Left out: the number for exponents of ten beyond 248 and the text of fractions, which are parameters. Infinities are written as the library writes them and read back (C87_infinity_back)."
  },
  {
   "property": "C88",
   "status": "partial",
   "theorems": [
    "C88_now",
    "C88_static",
    "C88_order",
    "C88_added",
    "C88_arguments",
    "C88_instant_refuted",
    "C88_zone_refuted",
    "C88_year_refuted"
   ],
   "note": "Proved for instants of the years 0 to 9999 and clocks that are whole minutes from UTC: the text is a timestamp that says the second of the instant, timecmp orders two results as their seconds, timeadd adds to it. False in full: the fraction of the second is lost (C88_instant_refuted), a clock that is not whole minutes from UTC gives another instant (C88_zone_refuted), after the year 9999 the result is no timestamp (C88_year_refuted). The clock is a parameter; Format is described from knowledge of package time."
  },
  {
   "property": "C89",
   "status": "partial",
   "theorems": [
    "C89_distinct",
    "C89_named",
    "C89_files",
    "C89_others",
    "C89_available_partial",
    "C89_installed",
    "C89_missing_refuted",
    "C89_own_refuted",
    "C89_own_partial"
   ],
   "note": "Proved for every directory and every map of the caller: names are distinct and described, functions of the package stand under their own name, the functions that read files come with the directory and are made for it, and DefaultTreeFunctions puts the table in front of the caller. False in full: templatefile, plantimestamp and type are described but missing (C89_missing_refuted), and for timeadd, parseint, log, pow and signum the table has the library's function though the package has its own (C89_own_refuted). The theorems on parseint (C68) and timeadd (C81, C86) are about the functions of this package."
  },
  {
   "property": "C90",
   "status": "proved",
   "theorems": [
    "C90_encodings",
    "C90_files",
    "C90_values",
    "C90_networks",
    "C90_startswith"
   ],
   "note": "For 38 functions of the package: the arguments are looked at in order, the first that is null, of a type not known yet or of another type decides the result, and if all are fit and one is unknown the result is unknown. Not covered: the functions that ask for such arguments (length, lookup, coalesce, conversions, sensitive, nonsensitive, startswith \u2014 see C90_startswith) and those whose result type depends on the arguments (one, matchkeys, parseint, templatefile)."
  },
  {
   "property": "C91",
   "status": "partial",
   "theorems": [
    "C91_log_refused",
    "C91_log_values",
    "C91_log_infinite",
    "C91_pow_refused",
    "C91_digits_refuted",
    "C91_too_large"
   ],
   "note": "Holds for numbers that a float64 can be, and infinities; math.Log, math.Pow and the rounded quotient are parameters of which only signs, infinities and missing values are said (C91_sample has instances). False in full: numbers go through float64, so those of more than 53 bits lose digits (C91_digits_refuted). Zeros have no sign in the model. The table of functions has the functions of the library instead (C89_own_refuted)."
  },
  {
   "property": "C92",
   "status": "partial",
   "theorems": [
    "C92_uuid",
    "C92_different",
    "C92_namespace",
    "C92_version_refuted"
   ],
   "note": "The random bytes are a parameter; go-uuid is described from knowledge of it. False in full: version and variant are not set, so that a result is a UUID of version 4 only by chance (C92_version_refuted)."
  },
  {
   "property": "C93",
   "status": "partial",
   "theorems": [
    "C93_described",
    "C93_names",
    "C93_total_partial",
    "C93_total_refuted"
   ],
   "note": "Proved for all 68 functions of the package. False for other functions: under a name whose description has another number of parameters WithDescription panics (C93_total_refuted). Nothing in the repository calls it."
  },
  {
   "property": "C94",
   "status": "proved",
   "theorems": [
    "C94_type",
    "C94_only",
    "C94_different",
    "C94_arguments",
    "C94_has"
   ],
   "note": "Proved for every value. A capsule is modelled by the type it holds, not by its pointer, so equality of two results in the library is not covered; C94_different assumes that capsules of different types differ."
  },
  {
   "property": "C95",
   "status": "partial",
   "theorems": [
    "C95_ipv4",
    "C95_ipv6",
    "C95_read_back",
    "C95_network_partial",
    "C95_network_refuted",
    "C95_mapped",
    "C95_host_partial",
    "C95_subnet_partial",
    "C95_netmask",
    "C95_fraction",
    "C95_subnets_partial"
   ],
   "note": "Every 4- or 16-byte address reads back from its text (C95_read_back), IPv6 in the form of RFC 5952. Networks read back unless they are IPv4-mapped: those are written as the IPv4 network of the last four bytes (C95_mapped, C95_network_refuted). The theorems on cidrhost and cidrsubnet have the guards of C41 and leave out mapped results. IP.String and IPNet.String are library functions, modelled in AddrModel.v."
  },
  {
   "property": "C96",
   "status": "proved",
   "theorems": [
    "C96_never_null",
    "C96_no_panic",
    "C96_others"
   ],
   "note": "For the 52 functions with the refinement, found by their names in the list of all 68 (C93). How Function.Call refines, and that the panic of NotNull is not caught, is described from knowledge of the library. Functions without the refinement, such as one and sensitive, do give null (C96_sample)."
  },
  {
   "property": "C97",
   "status": "proved",
   "theorems": [
    "C97_type",
    "C97_checked",
    "C97_refused",
    "C97_count"
   ],
   "note": "For all 68 functions and all well-typed arguments. That conversions give the type asked for, and that the values type gives are of its type, are hypotheses on the library. Function.ReturnTypeForValues and the check on results are described from knowledge of it. C97_count: a wrong number of arguments has no type."
  },
  {
   "property": "C98",
   "status": "proved",
   "theorems": [
    "C98_blind",
    "C98_kept",
    "C98_secret"
   ],
   "note": "C98_blind and C98_kept are for the 51 functions without AllowMarked, C98_secret for all but nonsensitive. That conversions keep the marks of a value is a hypothesis on the library; taking off and putting back marks in Function.Call is described from knowledge of it. Which marks an unknown result has is left open, so C98_kept is for known arguments, and C98_secret is for unknown ones if the library keeps their marks (marks_unknown). That messages do not depend on marks also means that they show sensitive values: see C74, C82 and C83. length and lookup leave out marks inside their argument, lookup those of a default that is not used (C98_sample)."
  },
  {
   "property": "C99",
   "status": "proved",
   "theorems": [
    "C99_consistent",
    "C99_value",
    "C99_type_of"
   ],
   "note": "For arguments that are unknown as a whole, in the 59 functions without AllowUnknown; the others are C99_value, C99_type_of, C50 and C69. Unknown values inside arguments are C69. That conversions give the type asked for, that everything can be converted from an unknown type, and that the values type gives are of its type, are hypotheses on the library. That Function.Call does not run the code of a function on unknown arguments is described from knowledge of it."
  },
  {
   "property": "C100",
   "status": "partial",
   "theorems": [
    "C100_races",
    "C100_writes",
    "C100_deletes",
    "C100_lookups",
    "C100_add_refuted",
    "C100_delete_refuted"
   ],
   "note": "False as stated: grep looks at the children without the mutex, so that every AddNode of a new name and every DeleteNode of a child races with every lookup and every other AddNode (C100_add_refuted, C100_delete_refuted, for any children). Proved for all programs and schedules: every race is one of such a look and a write (C100_races); the children change with the writes alone (C100_writes); deletions alone, and lookups with AddNode of names that are there, do not race. Orders are those of the Go memory model for goroutines and a mutex; the slice header and its elements are one location, and starting and waiting for goroutines is left out. GetNode stands for the other loops over children as well, each of which is a read without the mutex."
  },
  {
   "property": "C101",
   "status": "partial",
   "theorems": [
    "C101_value",
    "C101_panics",
    "C101_refuted",
    "C101_type_refuted",
    "C101_type",
    "C101_again"
   ],
   "note": "False in full: a list or map of texts, numbers or booleans that is null, unknown or marked panics (C101_refuted, C101_panics says that it is exactly these), and such a list comes back as a tuple, such a map as an object (C101_type_refuted). Proved for everything else, in every iteration order: the same data, and for values of other types the value itself; writing back what was written back changes nothing. The values and expressions of the libraries are described from knowledge of them."
  },
  {
   "property": "C102",
   "status": "partial",
   "theorems": [
    "C102_ok",
    "C102_no_panic",
    "C102_refuted",
    "C102_marked",
    "C102_unknown",
    "C102_same",
    "C102_written_back",
    "C102_order_ok",
    "C102_order"
   ],
   "note": "False in full: a value with a mark of its own, and most unknown values, panic (C102_refuted; C102_marked and C102_unknown say which). Proved in every iteration order: a value is converted exactly if nothing in sight is unknown or marked and each of its numbers is converted by itself; without unknown values and marks it never panics; on the values of CtyModel.v it is the conversion of C34 and C35; what is written back has the same native data; the order of Go maps changes neither whether a value is converted nor, at any depth, the data. What gocty and cty do with unknown and marked values is described from knowledge of them."
  },
  {
   "property": "C103",
   "status": "partial",
   "theorems": [
    "C103_back",
    "C103_back_integers",
    "C103_back_refuted",
    "C103_same",
    "C103_ok",
    "C103_panic",
    "C103_type",
    "C103_null",
    "C103_data",
    "C103_refuted",
    "C103_nil_refuted"
   ],
   "note": "False in full: NaN panics (C103_refuted), and a nil slice of texts is null while a nil slice of interfaces is the empty tuple (C103_nil_refuted). Proved: a value is converted exactly if no NaN and nothing without cty type is in it; nothing but NaN panics; the value has the data of the Go value, is well formed and has the cty type of the Go type; null is exactly nil of a type of its own or a pointer to it. What a function returned never panics on its way to native data, and arrives there if it has no floats and its integers fit in 64 bits (C103_back_refuted: a negative fraction is refused, as in C34). On maps and slices of interfaces it is the conversion of C35 (C103_same). Structs, arrays, cty.Value, big numbers and named types are left out; gocty is described from knowledge of it."
  }
 ]
}