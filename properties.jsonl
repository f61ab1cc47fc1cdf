{"id": "C01", "title": "Node tree behaves like a set of paths", "statement": "After any sequence of calls that add, look up and delete nodes through the public tree methods, no node has two children with the same name, adding a path twice returns the same node, and looking a path up returns a node exactly when that path was added and neither it nor a prefix was deleted afterwards; the returned node is the one that the add call returned.", "quantifier": "every finite history of AddNode/AddNodes/DeleteNode/GetNode/AddItem/DeleteItem calls on any node of the tree, every name (non-empty) and path length", "why_tests_cant": "Histories are unbounded; a test fixes a handful of them.", "anchors": ["utils/tree.go: Tree.AddNode, Tree.AddNodes, Tree.GetNode, Tree.DeleteNode, grep"]}
{"id": "C02", "title": "Deleting a node removes that node only", "statement": "Deleting a child by name removes one child of that name together with its subtree, leaves every other child in place with its order, identity, data and subtree unchanged, and is a no-op when there is no such child.", "quantifier": "every tree and every name", "why_tests_cant": "The number and shape of siblings is unbounded.", "anchors": ["utils/tree.go: Tree.DeleteNode"]}
{"id": "C03", "title": "Search by name chain returns only matching nodes, and finds one if it exists", "statement": "FindNode(names) returns only a node that is reached from the receiver by a downward path whose node names contain names in order and end with the last of them; and if such a node exists it returns one.", "quantifier": "every tree and every list of names", "why_tests_cant": "Completeness quantifies over all trees.", "anchors": ["utils/tree.go: Tree.FindNode"]}
{"id": "C04", "title": "Evaluation variables expose exactly the tree", "statement": "The variable map handed to the HCL evaluator has, for each node, exactly its data items (except one called \"var\") and its children as nested objects, data winning over a child of the same name; a node named \"var\" additionally exposes the whole map under \"var\".", "quantifier": "every tree of nodes with any data", "why_tests_cant": "Arbitrary nesting depth and name clashes.", "anchors": ["utils/tree.go: Tree.Variables"]}
{"id": "C05", "title": "Concurrent get-or-create does not lose or duplicate nodes", "statement": "When several goroutines add children to the same node concurrently, every call returns a node that is (and stays) a child, previously present children stay, and no two children end up with the same name.", "quantifier": "every number of goroutines, every set of names, every interleaving of the check, lock, append and unlock steps", "why_tests_cant": "Schedules cannot be enumerated by a test; the race detector sees only the schedule that ran.", "anchors": ["utils/tree.go: Tree.AddNode, Tree.mu, grep"]}
{"id": "C06", "title": "A reader concurrent with a delete still sees the other children", "statement": "A lookup of a child that is never deleted succeeds even when another child is being deleted concurrently.", "quantifier": "every interleaving of the element-by-element shift done by a delete with the element-by-element scan done by a lookup", "why_tests_cant": "Depends on the exact interleaving.", "anchors": ["utils/tree.go: Tree.DeleteNode, Tree.GetNode, grep"]}
{"id": "C07", "title": "Default tree and functions are installed without discarding the caller's", "statement": "Preparing the reference map reuses the caller's tree if one is supplied, otherwise installs a fresh one, keeps every other entry, makes all default functions available, and keeps a caller-supplied function that has the same name as a default one.", "quantifier": "every reference map", "why_tests_cant": "The reference map is open ended.", "anchors": ["utils/tree.go: DefaultTreeFunctions"]}
{"id": "C08", "title": "Shorthand spec notations mean the same as the long ones", "statement": "In a spec, a bare class name means the same as the pair of that name with no fields, in single, list, map and two-level-map position; building from an already built value is the identity.", "quantifier": "every class name, list and map of class names", "why_tests_cant": "Ranges over all lists and maps.", "anchors": ["utils/common.go: NewValue, newSingleStruct, newListStruct, newMapStruct, newMap2Struct"]}
{"id": "C09", "title": "Spec construction preserves structure and is deterministic", "statement": "NewStruct succeeds exactly on well-formed specs (valid UTF-8 field names, recognised value forms at every depth) and the result has the same class names, field names, list orders and map keys as the input, independent of map iteration order.", "quantifier": "every spec tree (unbounded depth and width), every map iteration order", "why_tests_cant": "Unbounded depth and unobservable iteration order.", "anchors": ["utils/common.go: NewStruct, NewValue, newSingleStruct, newListStruct, newMapStruct"]}
{"id": "C10", "title": "Two-level map specs keep every entry", "statement": "Building a two-level map spec from entries keyed by pairs keeps one entry for every pair key.", "quantifier": "every finite map keyed by pairs of strings, every iteration order", "why_tests_cant": "Depends on how keys collide and on iteration order.", "anchors": ["utils/common.go: newMap2Struct, newMap2StructString"]}
{"id": "C11", "title": "Default map spec is the lexicographically smallest key", "statement": "In JSON decoding, the default element spec of a map spec is the one of the byte-wise smallest key, independent of map iteration order.", "quantifier": "every finite map of specs and every iteration order", "why_tests_cant": "Iteration order is random.", "anchors": ["det/util.go: getFirstFromMap"]}
{"id": "C12", "title": "Auto-discovery finds exactly the reachable struct types", "statement": "The types discovered for a target are exactly the named struct types reachable from it through struct fields, one pointer, slices, map values and listed interface implementations, each available both under its short name and under its package-qualified name.", "quantifier": "every type graph (including cyclic ones) and every implementation table", "why_tests_cant": "Type graphs are unbounded and cyclic.", "anchors": ["det/collect.go: collectStructTypes"]}
{"id": "C13", "title": "Auto-discovery terminates", "statement": "Type discovery terminates for every target type.", "quantifier": "every Go type graph, including recursive ones", "why_tests_cant": "Non-termination cannot be observed by a test suite of finite examples.", "anchors": ["det/collect.go: collectStructTypes"]}
{"id": "C14", "title": "Explicit references take precedence over discovered ones", "statement": "When a class name is both supplied by the caller and auto-discovered, decoding uses the caller's; interface-implementation entries (lists) are never used as classes.", "quantifier": "every reference map and every discovered map", "why_tests_cant": "Ranges over all maps.", "anchors": ["det/unmarshal.go: JsonUnmarshal"]}
{"id": "C15", "title": "JSON decoding without a spec is the standard decoding", "statement": "With no spec, or a spec without fields, JsonUnmarshal behaves as encoding/json.Unmarshal, including errors.", "quantifier": "every JSON input and target", "why_tests_cant": "All inputs.", "anchors": ["det/unmarshal.go: JsonUnmarshal"]}
{"id": "C16", "title": "Fields outside the decoder's reach are never touched", "statement": "JSON decoding with a spec never changes unexported fields or fields tagged \"-\" of the target.", "quantifier": "every struct type, spec, input and prior target value", "why_tests_cant": "All inputs.", "anchors": ["det/util.go: loopFields", "det/unmarshal.go: JsonUnmarshal"]}
{"id": "C17", "title": "A spec'd field gets the class the spec names", "statement": "After a successful JSON decode, a field with a single-class spec holds a fresh instance of exactly the named class, decoded from that field's JSON recursively with the sub-spec; an unknown class name is an error.", "quantifier": "every spec, type environment and JSON input, to any nesting depth", "why_tests_cant": "Unbounded nesting.", "anchors": ["det/unmarshal.go: JsonUnmarshal, handleSingleStruct", "det/util.go: getRef, clone"]}
{"id": "C18", "title": "List specs: positions and length", "statement": "After a successful JSON decode of a list-spec'd slice field, the result has as many elements as the JSON array, element k has the class of entry k of the spec or of the first entry when the spec is shorter.", "quantifier": "every JSON array length and spec length", "why_tests_cant": "Lengths are unbounded.", "anchors": ["det/unmarshal.go: handleListOrMapStruct"]}
{"id": "C19", "title": "Map specs: keys and defaults", "statement": "After a successful JSON decode of a map-spec'd field, the result has exactly the JSON object's keys, each value has the class the spec gives for its key, or the default (smallest-key) class otherwise.", "quantifier": "every JSON object and map spec, every iteration order", "why_tests_cant": "Unbounded and order-dependent.", "anchors": ["det/unmarshal.go: handleMapStruct"]}
{"id": "C20", "title": "Two-level map specs resolve by both keys", "statement": "For a two-level map, an element with keys (a,b) gets the class the spec gives for (a,b); when b is unknown under a, or a is unknown, it gets the spec's overall first class.", "quantifier": "every two-level JSON object and spec", "why_tests_cant": "Unbounded.", "anchors": ["det/unmarshal.go: handleMap2Struct"]}
{"id": "C21", "title": "List spec on a map field", "statement": "With a list spec on a map field every value is decoded with the first class, as documented, and in any case the result does not depend on map iteration order.", "quantifier": "every JSON object, every list spec, every iteration order", "why_tests_cant": "Iteration order is random.", "anchors": ["det/unmarshal.go: handleListOrMapStruct"]}
{"id": "C22", "title": "Failed JSON decode leaves the target unchanged", "statement": "If JsonUnmarshal returns an error the target is as it was before the call.", "quantifier": "every input on which decoding fails, at every failing point", "why_tests_cant": "The failure point is arbitrary.", "anchors": ["det/unmarshal.go: JsonUnmarshal"]}
{"id": "C23", "title": "Fields absent from the JSON keep their value", "statement": "A field that the JSON input does not mention keeps its prior value, as with encoding/json.", "quantifier": "every struct, spec, input and prior value", "why_tests_cant": "All prior states.", "anchors": ["det/unmarshal.go: JsonUnmarshal"]}
{"id": "C24", "title": "Generic HCL round trip", "statement": "For every JSON-like map in the supported fragment (identifier keys, quotable strings, integers, booleans, nulls, lists, nested maps), marshalling to HCL succeeds for every map iteration order and unmarshalling the text gives back the same data.", "quantifier": "every value of the fragment (any depth and width) and every map iteration order", "why_tests_cant": "Unbounded data, random order.", "anchors": ["dethcl/encoding.go: encoding, loopHash, isHashAll, shortDirect", "dethcl/marshal.go: Marshal, marshalLevel", "dethcl/mapslice.go: decodeBody, decodeMap, decodeSlice, expressionToNative"]}
{"id": "C25", "title": "Marshalled strings come back unchanged", "statement": "Any string value survives marshalling to HCL and unmarshalling; in particular a string value can never change the structure of the document.", "quantifier": "every byte string", "why_tests_cant": "All strings.", "anchors": ["dethcl/encoding.go: shortDirect, encoding"]}
{"id": "C26", "title": "List elements survive the HCL round trip", "statement": "Every list of scalars, including zeros, false, empty strings and nulls, comes back element for element.", "quantifier": "every list", "why_tests_cant": "All lists.", "anchors": ["dethcl/encoding.go: encoding", "dethcl/marshal.go: marshalLevel"]}
{"id": "C27", "title": "Marshalled generic data is valid HCL", "statement": "Marshalling any JSON-like value gives text the HCL parser accepts.", "quantifier": "every nested value", "why_tests_cant": "Unbounded nesting.", "anchors": ["dethcl/encoding.go: encoding, loopHash"]}
{"id": "C28", "title": "Generic HCL decoding of blocks", "statement": "Decoding an HCL body into a map yields one entry per attribute; an unlabelled block yields its body as a map, or a list of maps when repeated; one- and two-label blocks yield one and two levels of nested maps; more than two labels is an error; nothing else is lost.", "quantifier": "every HCL body", "why_tests_cant": "Unbounded bodies.", "anchors": ["dethcl/mapslice.go: decodeBody, decodeMap"]}
{"id": "C29", "title": "Struct tag parsing", "statement": "Parsing a struct tag returns the name and kind in the tag's hcl entry, for every conventional struct tag.", "quantifier": "every struct tag string", "why_tests_cant": "All strings.", "anchors": ["dethcl/util.go: tag2"]}
{"id": "C30", "title": "Every exported field is decoded exactly once (HCL)", "statement": "HCL decoding partitions the exported fields of a struct into label, attribute, spec'd and generic fields: every field not excluded by its tag is in exactly one class and no unexported field is in any.", "quantifier": "every struct type and spec", "why_tests_cant": "All struct shapes.", "anchors": ["dethcl/unmarshal.go: loopFields"]}
{"id": "C31", "title": "HCL spec resolution for blocks", "statement": "For repeated blocks with a list spec, block k gets class k or the first class; for labelled blocks with a map spec, a block gets the class of its label or a default that does not depend on map iteration order.", "quantifier": "every block list, spec and iteration order", "why_tests_cant": "Unbounded, random order.", "anchors": ["dethcl/unmarshal.go: UnmarshalSpecTree"]}
{"id": "C32", "title": "Decoding depends only on its own input", "statement": "The result of UnmarshalSpec depends only on the document, the target, the spec and the caller's references; earlier calls with the same reference map or spec do not influence later ones.", "quantifier": "every history of decode calls sharing a reference map", "why_tests_cant": "Histories are unbounded.", "anchors": ["dethcl/unmarshal.go: UnmarshalSpec, loopFields", "utils/tree.go: DefaultTreeFunctions"]}
{"id": "C33", "title": "Object attributes given for block fields are split correctly", "statement": "When a block field is written as attribute = [{...},{...}], every object becomes one block with exactly that object's text.", "quantifier": "every list of object texts", "why_tests_cant": "All texts.", "anchors": ["dethcl/unmarshal.go: refreshBody, getBlockBytes"]}
{"id": "C34", "title": "Numbers convert without error or loss", "statement": "Converting an evaluated number to a native Go number succeeds and is exact whenever the number is representable as int64 or float64, and integers give integer types.", "quantifier": "every arbitrary-precision binary number", "why_tests_cant": "All numbers.", "anchors": ["utils/util.go: CtyNumberToNative"]}
{"id": "C35", "title": "Value conversion round trip", "statement": "Converting native JSON-like data to an evaluator value and back gives the same data, except that nulls inside collections are dropped.", "quantifier": "every nested value", "why_tests_cant": "Unbounded nesting.", "anchors": ["utils/util.go: CtyToNative, NativeToCty"]}
{"id": "C36", "title": "IPv4 parsing accepts exactly dotted quads", "statement": "ParseIP accepts a dotted string exactly if it is four decimal numbers 0..255 (leading zeros allowed) separated by dots, and returns those four bytes.", "quantifier": "every byte string", "why_tests_cant": "All strings.", "anchors": ["internal/ipaddr/ip.go: parseIPv4, ParseIP", "internal/ipaddr/parse.go: dtoi"]}
{"id": "C37", "title": "IPv6 parsing accepts exactly the colon grammar", "statement": "ParseIP accepts a colon string exactly if it is eight groups of hex numbers up to 0xffff, optionally with one :: standing for zero groups and optionally ending in a dotted quad for the last two groups, and returns the denoted 16 bytes.", "quantifier": "every byte string", "why_tests_cant": "All strings.", "anchors": ["internal/ipaddr/ip.go: parseIPv6, ParseIP", "internal/ipaddr/parse.go: xtoi"]}
{"id": "C38", "title": "CIDR parsing", "statement": "ParseCIDR(s) succeeds exactly for address/prefix with prefix at most the address width; the returned network has the prefix-length mask, all host bits zero, and contains the address.", "quantifier": "every string", "why_tests_cant": "All strings.", "anchors": ["internal/ipaddr/ip.go: ParseCIDR"]}
{"id": "C39", "title": "Address parsing never panics", "statement": "The address and CIDR parsers never index outside the input string or the address buffer.", "quantifier": "every byte string", "why_tests_cant": "All strings.", "anchors": ["internal/ipaddr/ip.go", "internal/ipaddr/parse.go"]}
{"id": "C40", "title": "cidrsubnets allocates disjoint subnets in order", "statement": "The networks returned by cidrsubnets lie inside the given prefix, have the requested lengths, are pairwise disjoint and are in increasing address order.", "quantifier": "every prefix and every list of new-bits", "why_tests_cant": "Unbounded lists.", "anchors": ["internal/lang/funcs/cidr.go: CidrSubnetsFunc"]}
{"id": "C41", "title": "cidrhost and cidrsubnet stay inside the prefix and are injective", "statement": "cidrhost(p,n) is an address of p, distinct n give distinct addresses (negative n count from the end); cidrsubnet(p,b,n) is a network of length len(p)+b inside p, distinct n give disjoint networks; out of range arguments are errors.", "quantifier": "every prefix, new-bits and number", "why_tests_cant": "All arithmetic.", "anchors": ["internal/lang/funcs/cidr.go: CidrHostFunc, CidrSubnetFunc"]}
{"id": "C42", "title": "cidrnetmask", "statement": "cidrnetmask(p) is the address with exactly len(p) leading one bits, and IPv6 prefixes are rejected.", "quantifier": "every prefix", "why_tests_cant": "All inputs.", "anchors": ["internal/lang/funcs/cidr.go: CidrNetmaskFunc"]}
{"id": "C43", "title": "transpose", "statement": "transpose(m)[v] lists exactly the keys k with v in m[k], sorted, with multiplicity; transposing twice gives back the non-empty part of a map of duplicate-free sorted lists.", "quantifier": "every map of lists of strings and every iteration order", "why_tests_cant": "Unbounded maps.", "anchors": ["internal/lang/funcs/collection.go: TransposeFunc"]}
{"id": "C44", "title": "alltrue and anytrue with unknowns", "statement": "alltrue and anytrue return the conjunction and disjunction (null counting as false); if they return a known value while some elements are unknown, every way of filling in the unknowns gives that same value.", "quantifier": "every list of known, null and unknown booleans", "why_tests_cant": "All lists and all completions.", "anchors": ["internal/lang/funcs/collection.go: AllTrueFunc, AnyTrueFunc"]}
{"id": "C45", "title": "coalesce", "statement": "coalesce returns the first argument that is neither null nor an empty string, is unknown if an unknown argument precedes it, and errors if there is none.", "quantifier": "every argument list", "why_tests_cant": "All lists.", "anchors": ["internal/lang/funcs/collection.go: CoalesceFunc"]}
{"id": "C46", "title": "index", "statement": "index(list, v) returns the first position holding v and errors exactly if v is absent.", "quantifier": "every list and value", "why_tests_cant": "All lists.", "anchors": ["internal/lang/funcs/collection.go: IndexFunc, Index"]}
{"id": "C47", "title": "lookup never drops sensitivity", "statement": "The result of lookup carries every mark of the map and of the key; with a default it returns the default exactly if the key is missing.", "quantifier": "every map, key, default and mark set", "why_tests_cant": "All mark sets.", "anchors": ["internal/lang/funcs/collection.go: LookupFunc"]}
{"id": "C48", "title": "matchkeys filters by key", "statement": "matchkeys returns, in order, exactly the values whose key is in the search set; if the search set has unknowns a known result is right for every completion.", "quantifier": "every three lists", "why_tests_cant": "All lists and completions.", "anchors": ["internal/lang/funcs/collection.go: MatchkeysFunc"]}
{"id": "C49", "title": "one and sum", "statement": "one(list) is the element of a singleton, null for empty, error otherwise; sum is the arithmetic sum independent of element order, and errors exactly on empty, null or non-number input.", "quantifier": "every list", "why_tests_cant": "All lists.", "anchors": ["internal/lang/funcs/collection.go: OneFunc, SumFunc"]}
{"id": "C50", "title": "startswith with partially known strings", "statement": "startswith returns the right answer for every string that the partially known argument may turn out to be.", "quantifier": "every known prefix, every completion and every prefix argument", "why_tests_cant": "All completions.", "anchors": ["internal/lang/funcs/string.go: StartsWithFunc"]}
{"id": "C51", "title": "Sensitive values never appear in messages", "statement": "Redaction never reveals the text of a value marked sensitive, and error messages of functions given sensitive arguments do not contain them.", "quantifier": "every value and mark set", "why_tests_cant": "All inputs.", "anchors": ["internal/lang/funcs/redact.go: redactIfSensitive", "internal/lang/funcs/collection.go: LookupFunc"]}
{"id": "C52", "title": "sensitive and nonsensitive", "statement": "sensitive(v) is v with the sensitive mark added and everything else unchanged; nonsensitive(v) removes exactly that mark; nonsensitive(sensitive(v)) = v when v was not sensitive.", "quantifier": "every value and mark set", "why_tests_cant": "All mark sets.", "anchors": ["internal/lang/funcs/sensitive.go: SensitiveFunc, NonsensitiveFunc"]}
{"id": "C53", "title": "Format conversions compose", "statement": "JSON to YAML to JSON, and HCL to JSON to HCL, preserve the generic data whenever each step succeeds.", "quantifier": "every document", "why_tests_cant": "All documents.", "anchors": ["convert/convert.go"]}
{"id": "C54", "title": "Converter command exit behaviour", "statement": "The command performs the conversion named by its two format flags for exactly the six ordered pairs of distinct supported formats, prints usage without a file, and exits with an error otherwise.", "quantifier": "every argument combination", "why_tests_cant": "All argument strings.", "anchors": ["cmd/fmtconvert/main.go"]}
{"id": "C55", "title": "Attribute fields take the attribute's value", "statement": "After a successful HCL decode, an attribute field holds the converted value of the attribute named by its tag, or its previous value when the attribute is absent and optional.", "quantifier": "every struct type, document, spec and target", "why_tests_cant": "All struct shapes and texts.", "anchors": ["dethcl/unmarshal.go: UnmarshalSpecTree"]}
{"id": "C56", "title": "Label fields", "statement": "After a successful HCL decode, a label field holds the string written as an attribute of its name; otherwise, when it was empty and as many labels were passed as there are label fields, the label in its position; otherwise it is unchanged.", "quantifier": "every struct type, label list and document", "why_tests_cant": "All struct shapes and texts.", "anchors": ["dethcl/unmarshal.go: UnmarshalSpecTree"]}
{"id": "C57", "title": "Generic fields", "statement": "After a successful HCL decode, a map or slice of interface{} holds the generic decoding of its attribute, or of its first block when there is no attribute, or is unchanged.", "quantifier": "every struct type and document", "why_tests_cant": "All struct shapes and texts.", "anchors": ["dethcl/unmarshal.go: UnmarshalSpecTree, decodeMap, decodeSlice"]}
{"id": "C58", "title": "Fields of the program's own struct types need no spec", "statement": "A block field whose type is a struct, a pointer to one, or a slice or map of them, is decoded from its blocks into that struct type without a spec.", "quantifier": "every struct type and document", "why_tests_cant": "All struct shapes and texts.", "anchors": ["dethcl/unmarshal.go: loopFields"]}
{"id": "C59", "title": "No part of a document is silently ignored", "statement": "A successful HCL decode uses every attribute and every block of the document: what no field claims is an error.", "quantifier": "every document", "why_tests_cant": "All struct shapes and texts.", "anchors": ["dethcl/unmarshal.go: refreshBody"]}
{"id": "C60", "title": "Other fields are left alone", "statement": "HCL decoding changes no field that the document does not mention and no field that is excluded or unexported; a failed decode changes nothing.", "quantifier": "every struct type, document and outcome", "why_tests_cant": "All struct shapes and texts.", "anchors": ["dethcl/unmarshal.go: UnmarshalSpecTree"]}
{"id": "C61", "title": "Decoding of nested blocks terminates", "statement": "HCL decoding of a finite document terminates for every spec, since the text of a nested block is shorter than the text around it.", "quantifier": "every document and spec", "why_tests_cant": "All struct shapes and texts.", "anchors": ["dethcl/unmarshal.go: UnmarshalSpecTree, getBlockBytes"]}
{"id": "C62", "title": "Re-parsing the text of a block or attribute", "statement": "The bytes between the braces of a block parse to the block's body, and the bytes from the equals sign to the end of an attribute parse to the attribute's expression, so decoding nested parts from their text loses nothing.", "quantifier": "every document", "why_tests_cant": "All struct shapes and texts.", "anchors": ["dethcl/unmarshal.go: getBlockBytes, refreshBody", "dethcl/util.go"]}
{"id": "C63", "title": "Structs are written as HCL that holds their fields", "statement": "Marshal succeeds on every struct, its text is HCL, and the attributes, blocks and labels of the text are those that the fields of the struct stand for, at every nesting.", "quantifier": "every struct type and value", "why_tests_cant": "All struct shapes, tags and nested values.", "anchors": ["dethcl/marshal.go: marshal, getFields, getOutlier"]}
{"id": "C64", "title": "Structs come back from their HCL text", "statement": "Reading the text that Marshal writes for a struct, with the labels of the struct, into a fresh struct of the type gives the struct back: the same labels, attributes, generic data, nested structs, slices and maps, at every nesting.", "quantifier": "every struct type and value", "why_tests_cant": "All struct shapes, tags and nested values, and every text that stands for them.", "anchors": ["dethcl/marshal.go: Marshal, marshal", "dethcl/unmarshal.go: Unmarshal, UnmarshalSpecTree"]}
{"id": "C65", "title": "Texts that fit a struct type are accepted", "statement": "Without a spec, Unmarshal reads a text without error or panic whenever the text fits the struct type: each attribute that is not null and each block belongs to a field, required attributes are there, values convert, generic data evaluates and blocks of generic data are not empty, map blocks have labels, no comment stands between an equals sign and the value, and the body of each nested block fits the type it is read into, at every nesting; struct types with an UnmarshalHCL of their own are not nested in it.", "quantifier": "every struct type, text, target, labels and state of the references", "why_tests_cant": "All struct shapes and all texts that fit them.", "anchors": ["dethcl/unmarshal.go: Unmarshal, UnmarshalSpecTree, refreshBody, loopFields"]}
{"id": "C66", "title": "parseint reads exactly the numerals of a base", "statement": "For a known string and a known base, parseint succeeds exactly if the base is a whole number from 2 to 62 and the string is a numeral of that base (an optional sign, then one or more digits; letters of both cases are the same digits up to base 36); the result is exactly the number the numeral stands for, however long, and carries the marks of both arguments. It never panics.", "quantifier": "every string, number and marks", "why_tests_cant": "All strings of any length and all bases.", "anchors": ["internal/lang/funcs/number.go: ParseIntFunc"]}
{"id": "C67", "title": "endswith, strcontains and replace", "statement": "endswith(s,t) and strcontains(s,t) are true exactly if t is a suffix, respectively a part, of s. replace(s,t,u), for t that is not empty and not between slashes, is s with each occurrence of t, taken from the left without overlap, replaced by u; so s is unchanged if t does not occur or t = u. Between slashes t is a regular expression. The result carries the marks of all arguments.", "quantifier": "every string and marks", "why_tests_cant": "All strings.", "anchors": ["internal/lang/funcs/string.go: EndsWithFunc, StrContainsFunc, ReplaceFunc"]}
{"id": "C68", "title": "length and signum", "statement": "length is the number of elements, attributes or graphemes where that is known (for tuples and objects it is in the type, even if the value is unknown), unknown where it is not (unknown collections and strings, sets of several elements not all known), and an error for numbers, booleans and null. signum is the sign of a whole 64-bit number and an error for every other number. Both keep the marks of the argument.", "quantifier": "every value", "why_tests_cant": "All values, with unknowns and marks at any nesting.", "anchors": ["internal/lang/funcs/collection.go: LengthFunc", "internal/lang/funcs/number.go: SignumFunc"]}
{"id": "C69", "title": "Answers given while arguments are unknown are final", "statement": "For index, sum, one, alltrue, anytrue, transpose, coalesce, length and lookup: if a call with partly unknown arguments gives an error, so does every call with the arguments completed; if it gives a value, the call with the completed arguments gives a completion of that value (the same value where it was known), or an error if nothing of it was known.", "quantifier": "every argument with unknown parts anywhere in it and every completion", "why_tests_cant": "Unknown parts can be at any depth, and each has infinitely many completions.", "anchors": ["internal/lang/funcs/collection.go: IndexFunc, SumFunc, OneFunc, AllTrueFunc, AnyTrueFunc, TransposeFunc, CoalesceFunc, LengthFunc, LookupFunc, MatchkeysFunc"]}
{"id": "C70", "title": "base64 functions", "statement": "base64encode gives the RFC 4648 text of the bytes of the string. base64decode succeeds exactly on the texts (line ends aside) that say a UTF-8 string, and gives that string, normalised; a text says at most one. Decoding after encoding gives the string back, also for the functions with a text encoding as far as that encoding does. Marks are kept; the message about a sensitive text does not depend on it.", "quantifier": "every string", "why_tests_cant": "All byte strings, all malformed texts.", "anchors": ["internal/lang/funcs/encoding.go: Base64DecodeFunc, Base64EncodeFunc, TextEncodeBase64Func, TextDecodeBase64Func, Base64GzipFunc"]}
{"id": "C71", "title": "urlencode and the form of hashes", "statement": "A reader of a query takes the result of urlencode for exactly the given string; it has only characters without another meaning; different strings give different results. The hash functions give the hash in small hexadecimal digits or in base 64. Marks are kept.", "quantifier": "every string and hash function", "why_tests_cant": "All byte strings.", "anchors": ["internal/lang/funcs/encoding.go: URLEncodeFunc", "internal/lang/funcs/crypto.go: makeStringHashFunction"]}
{"id": "C72", "title": "timecmp", "statement": "For RFC 3339 timestamps timecmp gives the sign of the difference of the two instants, counted from the calendar, the time of day and the UTC offset, to the nanosecond; exactly, if the fractions have at most nine digits. Texts that are no timestamps, such as those of days that do not exist, are refused unless the general parser of the library takes them. Marks are kept.", "quantifier": "every pair of timestamps", "why_tests_cant": "All dates of ten thousand years with all offsets.", "anchors": ["internal/lang/funcs/datetime.go: TimeCmpFunc, parseTimestamp"]}
{"id": "C73", "title": "path functions", "statement": "dirname gives the shortest path to what is before the last slash, abspath the shortest path from the root to where the path leads from the working directory, and there is one shortest path; basename gives the last name; dirname and basename together say the path again; pathexpand puts the home directory for a leading ~ and leaves other paths alone. Marks are kept.", "quantifier": "every path, working directory and home directory", "why_tests_cant": "All combinations of names, dots and slashes.", "anchors": ["internal/lang/funcs/filesystem.go: BasenameFunc, DirnameFunc, AbsPathFunc, PathExpandFunc"]}
{"id": "C74", "title": "file functions", "statement": "file gives the bytes where the path leads from the base directory if they are UTF-8, filebase64 gives them in base 64, the file hash functions give the hash of them, and fileexists says whether a regular file is there. Marks are kept, and no message betrays a sensitive path.", "quantifier": "every path, base directory and file system without symbolic links", "why_tests_cant": "All paths and file systems.", "anchors": ["internal/lang/funcs/filesystem.go: MakeFileFunc, MakeFileExistsFunc, openFile, readFileBytes", "internal/lang/funcs/crypto.go: makeFileHashFunction"]}
{"id": "C75", "title": "templatefile", "statement": "templatefile gives what the template in the file says with the given variables, also for a sensitive path; it cannot be called from the template; a name that the variables do not have is an error.", "quantifier": "every template, set of variables and set of functions", "why_tests_cant": "All templates and function tables.", "anchors": ["internal/lang/funcs/filesystem.go: MakeTemplateFileFunc"]}
{"id": "C76", "title": "references in documents decoded into maps", "statement": "When a document is decoded into maps and lists, a reference stands for the value of the attribute it names, by its path, in a body that encloses it, or for a value given beforehand; the result does not depend on the order in which Go visits maps.", "quantifier": "every document, every set of values and functions given beforehand, every order of the loops over maps", "why_tests_cant": "All documents and all iteration orders; a test sees one order per run.", "anchors": ["dethcl/mapslice.go: decodeBody, expressionToNative, decodeSlice, decodeObjectConsExpr", "utils/util.go: ExpressionToCty", "utils/tree.go: Variables"]}
{"id": "C77", "title": "references in documents decoded into structs", "statement": "When a document is decoded into structs, every attribute has the value it stands for when references name attributes of enclosing bodies or values given beforehand, whatever order Go visits the attributes in and whichever blocks the types call for.", "quantifier": "every document, every set of values and functions given beforehand, every order of the loops and of the blocks", "why_tests_cant": "All documents, iteration orders and target types.", "anchors": ["dethcl/unmarshal.go: UnmarshalSpecTree", "dethcl/mapslice.go: decodeSlice, decodeMap", "utils/tree.go: AddItem, AddNodes, GetNode, Variables"]}
{"id": "C78", "title": "calls in expressions", "statement": "A call in an expression has the value the function returns for the arguments, for functions of go-cty and for Go functions; the error of a Go function comes back; calls of missing functions and calls with the wrong number of arguments are errors; nothing panics.", "quantifier": "every expression, set of functions and set of variables", "why_tests_cant": "All expressions and function tables.", "anchors": ["utils/util.go: callToCty, ExpressionToCty"]}
{"id": "C79", "title": "documents without references", "statement": "What a document without references and calls decodes to depends neither on the values and functions given beforehand nor on the order in which Go visits maps.", "quantifier": "every document text, every set of values and functions, every order", "why_tests_cant": "All documents, environments and orders.", "anchors": ["dethcl/mapslice.go", "utils/util.go: ExpressionToCty"]}
{"id": "C80", "title": "several documents with one reference map", "statement": "Decoding several documents with the same reference map, into maps or structs, gives for each document what it gives alone.", "quantifier": "every list of documents, values and functions given beforehand, and orders", "why_tests_cant": "All sequences of documents.", "anchors": ["dethcl/unmarshal.go: UnmarshalSpec", "utils/tree.go: DefaultTreeFunctions", "dethcl/mapslice.go"]}
{"id": "C81", "title": "timeadd", "statement": "timeadd of a timestamp and a duration gives a timestamp that says the sum, with the same offset; other texts are refused.", "quantifier": "every timestamp, duration, offset and local clock", "why_tests_cant": "All dates, durations and clocks.", "anchors": ["internal/lang/funcs/datetime.go: TimeAddFunc, parseTimestamp"]}
{"id": "C82", "title": "uuidv5", "statement": "uuidv5 gives the UUID of version 5 of the namespace and the name, whatever the writing of the namespace, and refuses what is no namespace; different names or namespaces give different results unless hashes collide.", "quantifier": "every text and name, and every hash", "why_tests_cant": "All namespaces in all writings, and all names.", "anchors": ["internal/lang/funcs/crypto.go: UUIDV5Func"]}
{"id": "C83", "title": "bcrypt and rsadecrypt", "statement": "bcrypt hashes with the cost given or 10 and refuses other arguments; rsadecrypt gives what the key decrypts from the decoded text and nothing else.", "quantifier": "every text, cost and key", "why_tests_cant": "All arguments and library results.", "anchors": ["internal/lang/funcs/crypto.go: BcryptFunc, RsaDecryptFunc"]}
{"id": "C84", "title": "fileset", "statement": "fileset gives, each once, the ways from the directory to the regular files that fit the pattern below it, by their names there; it is refused only if the search or a file cannot be read or no way exists, and shows no sensitive path.", "quantifier": "every base directory, path, pattern and file system", "why_tests_cant": "All paths, with any mix of names, dots and slashes, and all results of the search.", "anchors": ["internal/lang/funcs/filesystem.go: MakeFileSetFunc"]}
{"id": "C85", "title": "Fractions in HCL text", "statement": "A decimal literal is read as the number it says, up to 512 bits, and accepted up to the largest int64; a fraction in the data is written and comes back with its value.", "quantifier": "every decimal literal, every float32 and float64", "why_tests_cant": "Literals of any length and all floats: rounding happens four times on the way (512 bits, float32 or float64, six decimals, and again).", "anchors": ["utils/util.go: CtyNumberToNative", "dethcl/encoding.go: shortDirect", "dethcl/mapslice.go: decodeMap"]}
{"id": "C86", "title": "What is read as a timestamp, and what is said about the rest", "statement": "timeadd and timecmp take the RFC 3339 timestamps and nothing else; every other text is refused with a message that names the first part that is wrong and quotes it.", "quantifier": "every text", "why_tests_cant": "All texts: each can go wrong at any of thirteen places, and what is said depends on the place, on what stands there and on what follows.", "anchors": ["internal/lang/funcs/datetime.go: parseTimestamp", "internal/lang/funcs/datetime.go: TimeAddFunc", "internal/lang/funcs/datetime.go: TimeCmpFunc"]}
{"id": "C87", "title": "Explicit conversions between texts, numbers and booleans", "statement": "tonumber gives for every numeral the nearest number of 512 bits and refuses every other text; tobool takes \"true\" and \"false\" only; tostring gives the digits of a whole number, and what it gives is converted back to the same value; marks stay, and a sensitive text is not shown.", "quantifier": "every text, number, boolean, null and mark set", "why_tests_cant": "All texts, of any length, and all numbers: which texts are numerals, and how they are rounded, is decided by a grammar and by big numbers.", "anchors": ["internal/lang/funcs/conversion.go: MakeToFunc", "internal/lang/functions.go: CoreFunctions", "internal/lang/funcs/collection.go: ListFunc"]}
{"id": "C88", "title": "timestamp", "statement": "timestamp gives the present instant as an RFC 3339 timestamp in UTC that timecmp and timeadd read as that instant, so that it never goes back when the clock does not; the static variant says the given instant on its own clock.", "quantifier": "every reading of the clock, every given time and zone", "why_tests_cant": "All instants: the calendar, the offset of the zone and the range of years decide what is written.", "anchors": ["internal/lang/funcs/datetime.go: TimestampFunc", "internal/lang/funcs/datetime.go: MakeStaticTimestampFunc"]}
{"id": "C89", "title": "The table of functions", "statement": "Documents find every function that is described under its name, each name once, in the version of this package where it has one; the functions that read files are there exactly if a directory is given and look only there.", "quantifier": "every name, every directory, every map of functions the caller gives", "why_tests_cant": "The table is used together with any functions of the caller and for any directory; a name bound to the wrong function still gives plausible results.", "anchors": ["internal/lang/functions.go: CoreFunctions", "utils/tree.go: DefaultTreeFunctions", "internal/lang/funcs/descriptions.go: DescriptionList"]}
{"id": "C90", "title": "Null and unknown arguments", "statement": "For the functions whose parameters do not ask for nulls, unknown values or values of dynamic type, the arguments are looked at in order. If the first one that does not fit is null, the call fails and says so; if its type is not known yet, the result is unknown; if it is of another type, the call fails. If all fit and one of them is unknown, the result is unknown, of the type of the function. Their own code is never run on such arguments.", "quantifier": "every function listed, every list of arguments, every implementation of the libraries", "why_tests_cant": "All lists of arguments of all types.", "anchors": ["internal/lang/funcs: Params of the functions in cidr.go, collection.go, crypto.go, datetime.go, encoding.go, filesystem.go, number.go, string.go"]}
{"id": "C91", "title": "log and pow", "statement": "log gives an error exactly where there is no logarithm: of negative numbers, to negative bases, where number and base are both 0 or infinite, and of 1 to the base 1. The logarithm of a number to itself is 1, of 1 is 0; the base 1 and the number 0 give infinities. pow gives an error exactly for a fraction as the power of a finite negative number; the power 0 gives 1, a negative power of 0 an infinity. Numbers beyond float64 are errors, no digits are lost otherwise. Marks are kept.", "quantifier": "every pair of numbers, every logarithm and power with the stated signs", "why_tests_cant": "All numbers, and all places where floating point has no value.", "anchors": ["internal/lang/funcs/number.go: LogFunc, PowFunc"]}
{"id": "C92", "title": "uuid", "statement": "uuid gives the text of a UUID of version 4: five groups of hexadecimal digits in small letters that say all the random bits; different random bytes give different results, a result can be the namespace of uuidv5, and a failure of the random source is an error.", "quantifier": "every 16 random bytes", "why_tests_cant": "All random bytes, and failures of the random source.", "anchors": ["internal/lang/funcs/crypto.go: UUIDFunc"]}
{"id": "C93", "title": "Descriptions fit the functions", "statement": "Every function of the package is described under its name with as many parameter descriptions as it takes arguments (further arguments count as one), so that WithDescription never panics; it does not change what a function does. The names described are those of the table of functions, templatefile, plantimestamp and type, each once.", "quantifier": "every function of the package, every implementation of the libraries", "why_tests_cant": "Nothing calls WithDescription, so that no test sees a description that does not fit.", "anchors": ["internal/lang/funcs/descriptions.go: DescriptionList, WithDescription"]}
{"id": "C94", "title": "type", "statement": "type gives a known result for every value, null, unknown or of a type not known: the type of the value, with the mark TypeType and all the marks found in the value and its elements. It shows nothing else of the value, keeps different types apart, and takes exactly one argument.", "quantifier": "every value, every mark", "why_tests_cant": "All values of all types, however nested, and all marks at any depth.", "anchors": ["internal/lang/funcs/conversion.go: TypeFunc", "internal/lang/marks/marks.go: TypeType, Has"]}
{"id": "C95", "title": "Texts of addresses and networks", "statement": "The texts that cidrhost, cidrnetmask, cidrsubnet and cidrsubnets give read back as the addresses and networks computed, so that a result can be given to these functions again; IPv6 addresses are in the short form of RFC 5952. Results have exactly the marks of the arguments, and numbers that are not whole are refused.", "quantifier": "every address and network, every prefix, number and mark", "why_tests_cant": "2^128 addresses with zeros in any place, all prefixes and numbers.", "anchors": ["internal/lang/funcs/cidr.go: CidrHostFunc, CidrNetmaskFunc, CidrSubnetFunc, CidrSubnetsFunc", "internal/ipaddr/ip.go: IP, IPNet"]}
{"id": "C96", "title": "Results refined as not null", "statement": "Most functions of the package promise by RefineResult that their result is not null; a null result would make Function.Call panic where nothing catches it. None of these functions gives null for any arguments, so the promise made about unknown results is kept by every value they turn out to be, and no call of any function of the package panics.", "quantifier": "every function of the package, every list of arguments, every implementation of the libraries", "why_tests_cant": "All lists of arguments of all types, null and unknown ones among them, at any depth.", "anchors": ["internal/lang/funcs/refinements.go: refineNotNull", "internal/lang/funcs: RefineResult of the functions in cidr.go, collection.go, crypto.go, datetime.go, encoding.go, filesystem.go, number.go, string.go"]}
{"id": "C97", "title": "Types of results", "statement": "The type that a function announces for its arguments is the type of what it gives: the result is an instance of it, open parts standing for any type. So the check go-cty makes on results never fails a call of a function of the package, and arguments refused when the type is asked for are refused by the call for the same reason.", "quantifier": "every function of the package, every list of arguments, every implementation of the libraries whose conversions give the type asked for", "why_tests_cant": "All types of arguments, nested to any depth, with unknown and null values in any place.", "anchors": ["internal/lang/funcs: Type and Impl of all functions", "internal/lang/funcs/collection.go: LookupFunc, OneFunc, CoalesceFunc, MatchkeysFunc", "internal/lang/funcs/conversion.go: MakeToFunc, TypeFunc", "internal/lang/funcs/filesystem.go: MakeTemplateFileFunc"]}
{"id": "C98", "title": "Marks of the arguments", "statement": "Marks such as sensitive do not change what a function computes and are not lost: for the functions without AllowMarked the result or the error is the same for arguments that differ in marks only, and the result carries the marks of all arguments at any depth and no others but its own. No function but nonsensitive gives a result that is not sensitive for an argument that is.", "quantifier": "every function of the package, every list of arguments, every implementation of the libraries whose conversions keep marks", "why_tests_cant": "All values, marked in any place at any depth, for all functions.", "anchors": ["internal/lang/funcs: AllowMarked in collection.go, conversion.go, encoding.go, filesystem.go, number.go, sensitive.go", "internal/lang/marks/marks.go: Sensitive"]}
{"id": "C99", "title": "Unknown arguments", "statement": "What a function says about unknown arguments stays true when they become known: for the functions without AllowUnknown the result is an unknown value whose type the later result is an instance of, and an error stays an error whatever the unknown arguments turn out to be.", "quantifier": "every function of the package, every list of arguments with unknown ones in any place, every value they may become, every implementation of the libraries", "why_tests_cant": "All ways to fill in unknown arguments.", "anchors": ["internal/lang/funcs: AllowUnknown in collection.go, conversion.go, sensitive.go, string.go", "internal/lang/funcs: Type of all functions"]}
{"id": "C100", "title": "No data races on a tree", "statement": "Goroutines that add, look up and delete children of one node do not race: two accesses to the children, one of them a write, are always ordered by the mutex of the node.", "quantifier": "every number of goroutines, every list of calls of each, every children, every schedule", "why_tests_cant": "The race detector sees only the accesses of the schedules that ran.", "anchors": ["utils/tree.go: Tree.AddNode, Tree.GetNode, Tree.DeleteNode, Tree.mu, grep"]}
{"id": "C101", "title": "Values written back", "statement": "The expression that replaces an attribute once it is evaluated has the value of the attribute: for every value CtyToExpression gives an expression without panicking, and that expression evaluates to the same data.", "quantifier": "every cty value, with unknown and null values and marks; every iteration order of Go maps", "why_tests_cant": "All values of all types.", "anchors": ["utils/util.go: CtyToExpression", "dethcl/unmarshal.go: lines 118-127", "dethcl/mapslice.go: expressionToNative"]}
{"id": "C102", "title": "Unknown and marked values as native data", "statement": "CtyToNative converts every value or returns an error, also unknown values and values marked sensitive, and the value written back into an attribute has the same native data as the value it stands for.", "quantifier": "every cty value, with unknown and null values and marks at any depth; every iteration order of Go maps", "why_tests_cant": "All values of all types at any depth.", "anchors": ["utils/util.go: CtyToNative", "utils/util.go: CtyNumberToNative", "utils/util.go: CtyToExpression", "dethcl/mapslice.go: expressionToNative"]}
{"id": "C103", "title": "Go values of any type as cty values", "statement": "NativeToCty converts what a Go function returns, or returns an error: typed slices, maps and pointers become cty values of the type that belongs to theirs, and nil means the same whatever the type.", "quantifier": "every Go value built of texts, booleans, numbers, slices, maps and pointers, nil at any depth", "why_tests_cant": "All types and values at any depth.", "anchors": ["utils/util.go: NativeToCty", "utils/util.go: callToCty"]}
