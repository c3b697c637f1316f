{
 "claims": [
  {
   "property": "C01",
   "status": "proved",
   "theorems": [
    "C01_parse_total"
   ],
   "note": "Panic (index out of range) and Fuel (non-termination) are excluded for every byte list; success gives a value of JSON types throughout."
  },
  {
   "property": "C02",
   "status": "partial",
   "theorems": [
    "C02_refuted",
    "C02_complete_partial",
    "C02_accepted_exactly"
   ],
   "note": "The full statement is false: 184467440737095516160.5 is a valid finite literal and is rejected (64-bit accumulator wraps to 0, then a zero digit is taken for a leading zero). Proved for all documents whose non-integer literals have no such prefix and |exponent| <= 99999. C02_accepted_exactly: for every JSON text, acceptance is equivalent to an explicit condition on its literals (no gap left)."
  },
  {
   "property": "C03",
   "status": "proved",
   "theorems": [
    "C03_in_place",
    "C03_failed"
   ],
   "note": "C03_in_place is for inputs that are accepted, C03_failed for those that are rejected."
  },
  {
   "property": "C04",
   "status": "partial",
   "theorems": [
    "C04_refuted",
    "C04_marshal_json_partial",
    "C04_json_exactly",
    "C04_reparse_refuted"
   ],
   "note": "False as stated: U+000B is written raw. C04_json_exactly: for every value whose strings are bytes and whose numbers have a text, the output is JSON exactly if no string holds U+000B and every number text is an RFC 8259 literal, and then shows the value. Values parsed from accepted non-JSON texts such as [-01] are written back as such (C04_reparse_refuted)."
  },
  {
   "property": "C05",
   "status": "partial",
   "theorems": [
    "C05_refuted",
    "C05_round_trip_partial",
    "C05_round_trip_parsed_partial",
    "C05_round_trip_exactly",
    "C05_parsed_exactly"
   ],
   "note": "False as stated: distinct ill-formed member names may be repaired to one name. The exact theorems say that a value comes back if and only if no two names of an object (of its non-null members under OmitNull) are repaired to the same name."
  },
  {
   "property": "C06",
   "status": "partial",
   "theorems": [
    "C06_refuted",
    "C06_alphabet_partial",
    "C06_alphabet_exactly"
   ],
   "note": "False as stated: U+000B is written raw. Well-formedness, HTML and slash parts proved for all byte strings; the control-character parts hold exactly for values without U+000B."
  },
  {
   "property": "C07",
   "status": "partial",
   "theorems": [
    "C07_refuted",
    "C07_string_text_partial",
    "C04_json_exactly"
   ],
   "note": "The text denotes the repaired string in the accepted language for every byte string; as an RFC 8259 string it does so exactly if U+000B does not occur."
  },
  {
   "property": "C08",
   "status": "proved",
   "theorems": [
    "C08_int64",
    "C08_uint64"
   ],
   "note": "All int64 and uint64 values, every marshal option set. The text is the decimal of the integer."
  },
  {
   "property": "C09",
   "status": "partial",
   "theorems": [
    "C09_refuted",
    "C09_int_exact_partial",
    "C09_literal_exactly"
   ],
   "note": "False for 20-digit literals that wrap modulo 2^64; proved for all literals that fit. C09_literal_exactly: the value of every accepted literal, with the reduction modulo 2^64; refusal is C02_accepted_exactly."
  },
  {
   "property": "C10",
   "status": "proved",
   "theorems": [
    "C10_number_text"
   ],
   "note": "Every number of a parsed value is shown with its source text under every option."
  },
  {
   "property": "C11",
   "status": "partial",
   "theorems": [
    "C11_refuted",
    "C11_accepted_language",
    "C11_one_reading"
   ],
   "note": "False as stated; the exact accepted language is characterised by a grammar, both directions, and the grammar gives a text at most one reading."
  },
  {
   "property": "C12",
   "status": "partial",
   "theorems": [
    "C12_last_holds",
    "C12_duplicates",
    "C12_refuted"
   ],
   "note": "That the last member of a name holds is proved for texts of every size (C12_last_holds). The order of last occurrence is false for objects with 2^32 members or more, the counter OptSetSequence sorts by having 32 bits (C12_refuted); C12_duplicates is the full statement, at every depth, for inputs below 2^32 bytes."
  },
  {
   "property": "C13",
   "status": "partial",
   "theorems": [
    "C13_refuted",
    "C13_set_get_partial",
    "C13_exactly"
   ],
   "note": "False as stated: At with an index beyond the end of an array and further parameters appends and succeeds, the path then leads nowhere (C13_refuted). Proved for every tree with one entry per member name, every path of names and integers (positive, negative, any integer type) whose indexes on the way are between -n and n. C13_exactly: for every successful call the path afterwards leads through the place written, and to the value, exactly if every index it met was between -n and n, or -1 on an empty array."
  },
  {
   "property": "C14",
   "status": "partial",
   "theorems": [
    "C14_refuted",
    "C14_set_frame_partial",
    "C14_exactly"
   ],
   "note": "False for paths with negative indexes: appending shifts what they address (C14_refuted). Proved for every place of the tree and for every other path of names and non-negative indexes. C14_exactly: every path (negative indexes included) that led to an unrelated place leads to the same place and value afterwards, unless it counts from the end of the array that has grown, in which case it never leads to the same place."
  },
  {
   "property": "C15",
   "status": "proved",
   "theorems": [
    "C15_unchanged",
    "C15_caseless_unchanged",
    "C15_no_panic"
   ],
   "note": "All parameters, including slices and values of wrong types. The document after a failing call is equal to the one before; a failing caseless Delete may build the hidden caseless index, which does not change the output. C15_no_panic: the calls end normally on documents without nil pointers inside."
  },
  {
   "property": "C16",
   "status": "proved",
   "theorems": [
    "C16_created",
    "C16_succeeds",
    "C16_fails"
   ],
   "note": "settable says when Set succeeds; set_outcome/built say what is created."
  },
  {
   "property": "C17",
   "status": "partial",
   "theorems": [
    "C17_refuted",
    "C17_get_steps_partial",
    "C17_get_path_partial",
    "C17_unsigned_exactly"
   ],
   "note": "False for unsigned parameters of 2^63 and more, which wrap to negative indexes (C17_refuted). Proved for the index after conversion to int. C17_unsigned_exactly: what every unsigned parameter does."
  },
  {
   "property": "C18",
   "status": "proved",
   "theorems": [
    "C18_insert",
    "C18_insert_only",
    "C18_insert_fails"
   ],
   "note": "Index: the parameter converted to int. Trees with nil pointers inside are excluded from the failure claim (Before panics on them)."
  },
  {
   "property": "C19",
   "status": "partial",
   "theorems": [
    "C19_refuted",
    "C19_append_partial"
   ],
   "note": "False where the missing array would be an array element: Append reports ErrOutOfRange although Set would create it (C19_refuted). Proved: Append succeeds exactly if the path leads to an array or a member is missing and Set can store the array."
  },
  {
   "property": "C20",
   "status": "proved",
   "theorems": [
    "C20_delete"
   ],
   "note": "Index: the parameter converted to int."
  },
  {
   "property": "C21",
   "status": "proved",
   "theorems": [
    "C21_slice",
    "C21_slice_alone",
    "C21_slice_empty"
   ],
   "note": "For every slice, also nested ones; the empty slice is the path of one nil parameter (for Append: no parameter)."
  },
  {
   "property": "C22",
   "status": "proved",
   "theorems": [
    "C22_caseless_get",
    "C22_caseless_delete",
    "C22_caseless_path",
    "C22_ordinary"
   ],
   "note": "Histories are all finite sequences of Get, Set, Insert, Append, Delete, SortArray, UnmarshalJSON and Import (ordinary and caseless, failing or not, on the document or on values found inside it) from parsed documents and constructor values; what is put in or imported has a history of its own. Single-threaded model."
  },
  {
   "property": "C23",
   "status": "partial",
   "theorems": [
    "C23_refuted",
    "C23_set_order_partial",
    "C23_inner_order_partial",
    "C23_order_accepted_partial",
    "C23_inner_accepted_partial",
    "C23_set_inside"
   ],
   "note": "The statement is false for objects that were set 2^32 times or more: the counter wraps (C23_refuted). Proved for fewer sets, for the object itself with its values (C23_order_accepted_partial) and, by the numbers of the members, for every object inside (C23_inner_accepted_partial), with and without OptOmitNull; the other two say that the output is JSON where it can be."
  },
  {
   "property": "C24",
   "status": "proved",
   "theorems": [
    "C24_determined",
    "C24_default_sequence",
    "C24_key_sequence",
    "C24_default_is_total",
    "C24_less",
    "C24_default_accepted",
    "C24_keyseq_accepted"
   ],
   "note": "Determinism for all values of JSON types; the order is proved for every less function that is a strict weak order (C24_less) and for both sequences, for all values whose number texts the parser accepts; the RFC versions say that the output is JSON."
  },
  {
   "property": "C25",
   "status": "partial",
   "theorems": [
    "C25_reflexive",
    "C25_symmetric",
    "C25_transitive",
    "C25_no_cache",
    "C25_refuted",
    "C25_same_json_partial",
    "C25_parsed",
    "C25_exactly"
   ],
   "note": "Equivalence, and independence of caches and iteration order, for all values of JSON types. 'True exactly for the same JSON' is refuted (1e-10000000000 equals 0: decimal.NewFromString fails on exponents outside int32 and the error is dropped) and proved when all exponents are int32. C25_exactly says for all parsed values when Equal is true: literals with other exponents are taken for 0."
  },
  {
   "property": "C26",
   "status": "partial",
   "theorems": [
    "C26_trichotomy",
    "C26_transitive",
    "C26_others",
    "C26_refuted",
    "C26_exact_partial",
    "C26_integers",
    "C26_exactly"
   ],
   "note": "Trichotomy, negations, transitivity for all numbers; non-numbers always false (nil *V excluded, it panics). Exact decimal order refuted for exponents outside int32, proved for the others and for all int64/uint64. C26_exactly says for all parsed numbers what is compared: literals with other exponents are taken for 0."
  },
  {
   "property": "C27",
   "status": "partial",
   "theorems": [
    "C27_refuted",
    "C27_blank_panics",
    "C27_getters_partial",
    "C27_accessors_partial"
   ],
   "note": "The statement is false: on a string of white space only (not empty when trimmed away) the number getters panic. Proved: the contract for every other string and every other value. GetBytes is not covered here. GetFloat32 assumes float32(0) = 0."
  },
  {
   "property": "C28",
   "status": "proved",
   "theorems": [
    "C28_copy_equal",
    "C28_independent",
    "C28_original_changes",
    "C28_copy_changes",
    "C28_import_returns"
   ],
   "note": "Heap model (structs at addresses).  Import of a *V copies into new memory only; the copy shows the same value up to the caseless index; two parties that hold the original and the copy never interfere, whatever calls (New, Get, Set, Insert, Append, Delete, SortArray, UnmarshalJSON, Import) they make in whatever order.  Nil pointers that were put into a container become values that do not exist (example C28_nil_inside); a value inside itself is never copied (C28_import_returns).  Set, Insert and Append of a *V do not copy (C45)."
  },
  {
   "property": "C29",
   "status": "partial",
   "theorems": [
    "C29_text",
    "C29_round_trip",
    "C29_set_get",
    "C29_refuted",
    "C29_get_bytes_partial",
    "C29_bytes"
   ],
   "note": "Round trips hold for all byte strings. GetBytes fails exactly on strings that are not base64 once line breaks are removed; the sentence of the property taken literally is refuted because line breaks and set bits behind the last byte are accepted (C29_refuted)."
  },
  {
   "property": "C30",
   "status": "partial",
   "theorems": [
    "C30_refuted",
    "C30_omit_null_partial",
    "C30_json_exactly",
    "C30_default_exactly",
    "C30_keyseq_exactly",
    "C30_setseq_exactly",
    "C30_same_text_sorted",
    "C30_same_text_keyseq",
    "C30_same_text_setseq"
   ],
   "note": "False as stated (missing comma). Exact condition proved: the output is JSON exactly if, in the order written, the nulls left out of each object stand before or behind all other members (and the texts are JSON); then it shows the value without its null members. C30_same_text_*: exactly when the text is that of the value without its null members (under an order of the members): the same condition, and with indentation no object of nulls only."
  },
  {
   "property": "C31",
   "status": "partial",
   "theorems": [
    "C31_refuted",
    "C31_policy_partial",
    "C31_default_partial",
    "C31_default_exactly",
    "C31_never_shown",
    "C31_policy_omit_partial"
   ],
   "note": "False under the default policy inside containers; proved with a policy set, and for top level numbers. C31_default_exactly says what the default policy does inside containers: no error, the number is left out, and the text is JSON only if each such number is alone in its array. C31_policy_omit_partial: the same with OptOmitNull where C30 holds."
  },
  {
   "property": "C32",
   "status": "proved",
   "theorems": [
    "C32_layout",
    "C32_squeeze",
    "C32_layout_always",
    "C32_squeeze_always"
   ],
   "note": "The last two hold for all options; under OptOmitNull an object all of whose members are left out takes two lines (example beside them), and the tree of texts has its members in runs, between which there is no comma (C30). The first two are the layout with commas everywhere, without OptOmitNull."
  },
  {
   "property": "C33",
   "status": "partial",
   "theorems": [
    "C33_refuted",
    "C33_interleavings_partial",
    "C33_taken"
   ],
   "note": "Refuted: documents that contain only a string, true, false or null leave the count at 1, so the 32 bits of the stored size overflow after 4 GiB of them, and a later call can divide by zero (C33_refuted, a sequential run of two-byte documents). Proved for every number of goroutines and every interleaving while such documents stay below 2 GiB in sum. Sequentially consistent atomics; the memory reserved by make is not modelled."
  },
  {
   "property": "C34",
   "status": "partial",
   "theorems": [
    "C34_refuted",
    "C34_set_insert_partial",
    "C34_garbage_refuted"
   ],
   "note": "False for Append: the conversion error is dropped and a NotExist element is appended. Proved for Set and Insert. C34_garbage_refuted: after such an Append, Marshal writes a text that is not JSON."
  },
  {
   "property": "C35",
   "status": "partial",
   "theorems": [
    "C35_import_partial",
    "C35_refuted",
    "C35_omitempty_refuted",
    "C35_string_refuted",
    "C35_fields_refuted",
    "C35_nil_refuted",
    "C35_total",
    "C35_total_refuted",
    "C35_errors",
    "C35_argument_partial"
   ],
   "note": "Import is compared with a relational account of json.Marshal (enc). The full statement is false: omitempty follows pointers and reaches map entries and marshaler output, misses empty arrays; 'string' reaches slice elements and skips strings; named embedded structs are flattened, nil embedded pointers become null members; nil slices become []; nil *V becomes a nil child. C35_import_partial proves agreement on all other data (predicate alike), at any nesting. C35_total: no panic unless a user method panics or an unexported type with a method is embedded (C35_total_refuted). Structs in which two fields compete for one name are outside enc.  C35_errors: Import returns an error exactly for data with something in it that has no JSON.  C35_argument_partial: the same for Go data given to Set, Insert and Append."
  },
  {
   "property": "C36",
   "status": "partial",
   "theorems": [
    "C36_array",
    "C36_object",
    "C36_refuted",
    "C36_set_sequence_partial",
    "C36_set_sequence_any",
    "C36_nothing",
    "C36_determined"
   ],
   "note": "RangeArray, RangeObjects, Iter*, ForRange* proved for every callback (a state machine that does not change the value) and every map order. Set order of RangeObjectsBySetSequence refuted after 2^32 sets (32-bit counter) and proved for fewer."
  },
  {
   "property": "C37",
   "status": "proved",
   "theorems": [
    "C37_contains",
    "C37_content",
    "C37_data_partial",
    "C37_fault",
    "C37_nil"
   ],
   "note": "C37_contains, C37_content: for sub of type *V, in full.  Other sub values go through Import: C37_data_partial (data on which Import agrees with encoding/json, C35) and C37_fault (data without JSON is contained nowhere)."
  },
  {
   "property": "C38",
   "status": "proved",
   "theorems": [
    "C38_last_option_wins",
    "C38_defaults"
   ],
   "note": "Sequential histories of calls."
  },
  {
   "property": "C39",
   "status": "proved",
   "theorems": [
    "C39_sorts",
    "C39_other",
    "C39_memory",
    "C39_memory_other"
   ],
   "note": "For less functions that do not change the values; a nil *V panics."
  },
  {
   "property": "C40",
   "status": "proved",
   "theorems": [
    "C40_must"
   ],
   "note": ""
  },
  {
   "property": "C41",
   "status": "partial",
   "theorems": [
    "C41_refuted",
    "C41_greater_refuted",
    "C41_len_array",
    "C41_len_object",
    "C41_len_other",
    "C41_one_type",
    "C41_type_parsed",
    "C41_parsed_partial",
    "C41_number_predicates",
    "C41_parsed_exactly",
    "C41_float_exactly"
   ],
   "note": "Len and the type predicates are proved. The number predicates are false for NewFloat64(1.5) (IsInteger) and for the parsed literal 9223372036854775806.5 (GreaterThanInt64Max); what they answer is proved for every parsed literal and every float (floats of 2^64 and more excepted, where Go leaves the conversion to uint64 open)."
  },
  {
   "property": "C42",
   "status": "partial",
   "theorems": [
    "C42_refuted",
    "C42_partial"
   ],
   "note": "False for the empty input, where Unmarshal returns a nil *V. Proved for every other rejected input."
  },
  {
   "property": "C43",
   "status": "proved",
   "theorems": [
    "C43_string",
    "C43_any"
   ],
   "note": "Every parsed document, every map iteration order."
  },
  {
   "property": "C44",
   "status": "proved",
   "theorems": [
    "C44_key_path",
    "C44_empty_name",
    "C44_shared_memory",
    "C44_told"
   ],
   "note": "The path is the list of Keys; the Key of an empty member name equals that of index 0. C44_shared_memory and C44_told are about key paths as Go slices that share arrays."
  },
  {
   "property": "C45",
   "status": "proved",
   "theorems": [
    "C45_get",
    "C45_set",
    "C45_insert",
    "C45_append",
    "C45_delete",
    "C45_seen",
    "C45_mutate_inside",
    "C45_not_detached"
   ],
   "note": "Heap model.  Every call changes at most one container, which is inside the document it was called on, in the stated way; what is returned is the pointer inside the document.  C45_mutate_inside: a finite document, any calls on things below the value.  C45_not_detached: any memory with shared values and cycles, any calls through any pointers that do not remove or overwrite a child on the way.  SortArray and UnmarshalJSON are among the calls (the latter removes all children of its receiver)."
  },
  {
   "property": "C46",
   "status": "proved",
   "theorems": [
    "C46_marshal_total",
    "C46_typed"
   ],
   "note": "Both directions: Marshal panics exactly if the tree holds a nil."
  },
  {
   "property": "C47",
   "status": "proved",
   "theorems": [
    "C47_get",
    "C47_set",
    "C47_insert",
    "C47_append",
    "C47_delete",
    "C47_series",
    "C47_contents_decide",
    "C47_sort",
    "C47_load"
   ],
   "note": "The functions on addresses (Heap.v) refine the functions on trees (Path.v, Edit.v) for documents in which no struct is reachable twice; an example shows that sharing breaks it. This carries the theorems about trees (C12 to C24) over to values in memory."
  },
  {
   "property": "C48",
   "status": "partial",
   "theorems": [
    "C48_kept_refuted",
    "C48_kept_partial",
    "C48_short"
   ],
   "note": "False: append in newParentInfo reuses arrays, so a kept path may later show keys of a sibling, or a mixture that leads nowhere. Proved: its length stays, and the keys up to the last length at which append allocated; with the runtime's capacities paths of up to three keys stay."
  },
  {
   "property": "C49",
   "status": "partial",
   "theorems": [
    "C49_parent_refuted",
    "C49_parent_partial"
   ],
   "note": "False for members of objects, where Parent is the member itself; for elements of arrays it is the array. The partial theorem says exactly that."
  },
  {
   "property": "C50",
   "status": "partial",
   "theorems": [
    "C50_refuted",
    "C50_nearest_partial",
    "C50_document_partial",
    "C50_range_partial",
    "C50_content_exactly"
   ],
   "note": "False for 20-digit integer literals from 2^64 on, which are reduced modulo 2^64. Proved for every other literal whose exponent is below 100000 in absolute value: the value is the nearest binary64 number (spec in integers, SpecRound.v), and literals with fraction or exponent are refused exactly above the overflow threshold. C50_content_exactly: the float of every accepted RFC literal, without exception (modulo 2^64 for unsigned integers, exponents from 100000 on cut to five digits as strconv does)."
  },
  {
   "property": "C51",
   "status": "proved",
   "theorems": [
    "C51_load",
    "C51_holders",
    "C51_others",
    "C51_former_children",
    "C51_nil",
    "C51_round_trip"
   ],
   "note": "UnmarshalJSON/UnmarshalBinary on the memory model: the struct of the receiver alone is overwritten; C51_nil states the panic of a nil receiver; C51_round_trip adds MarshalJSON before it, under the conditions of C05."
  },
  {
   "property": "C52",
   "status": "partial",
   "theorems": [
    "C52_refuted",
    "C52_panics_iff",
    "C52_text_partial",
    "C52_distinct_partial",
    "C52_key"
   ],
   "note": "False: the default options have no escaping functions until SetDefaultMarshalOptions is called (and again after ResetDefaultMarshalOptions), and KeyPath.String of a path with a string key then panics.  C52_panics_iff: exactly then.  C52_text_partial: in all other cases the text is as stated (text of a string with U+000B only in the lax grammar, C06).  A key with the empty name counts as index 0 (example C52_empty_key)."
  },
  {
   "property": "C53",
   "status": "proved",
   "theorems": [
    "C53_new_object",
    "C53_no_map"
   ],
   "note": "Kinds as reflect shows them; floats are finite (NaN and infinities are stored, see C31 for their text).  Uintptr, *V, maps, slices and structs are among the kinds left out without a message; the comment of NewObject says that only basic types are supported."
  },
  {
   "property": "C54",
   "status": "proved",
   "theorems": [
    "C54_series"
   ],
   "note": "The number getters are not among the calls, they do panic on blank strings (C27).  Nil put in by Insert or Append makes later calls panic (example C54_nil).  Documents that share values or contain themselves are outside this theorem (tree model)."
  },
  {
   "property": "C55",
   "status": "partial",
   "theorems": [
    "C55_refuted",
    "C55_survives",
    "C55_both_contracts",
    "C55_survives_partial",
    "C55_contract"
   ],
   "note": "The statement is false (C55_refuted). C55_survives decides every finite float: lost are exactly those from 2^64 up resp. from -2^63 down that are below 10^21 in magnitude. Hypotheses are the contract of strconv.FormatFloat (format_contract: reads back; shortest_at_limit: for the two borders, fewest digits and closest of these), shown satisfiable by C55_both_contracts. C55_survives_partial needs only the first and leaves out the two borders."
  },
  {
   "property": "C56",
   "status": "partial",
   "theorems": [
    "C56_any_exactly",
    "C56_value_exactly",
    "C56_import",
    "C56_failures",
    "C56_refuted"
   ],
   "note": "False for strings with U+000B (the marshalled text is not JSON) and for number texts that are not JSON literals; exactly when Export succeeds, and what it stores, is proved for destinations interface{} and *V. json.Unmarshal is a relation after its documentation (depth limit 10000). Other destination types are not modelled. C56_failures: values that Marshal refuses."
  },
  {
   "property": "C57",
   "status": "partial",
   "theorems": [
    "C57_back_partial",
    "C57_exactly",
    "C57_refuted"
   ],
   "note": "False for strings with U+000B. C57_exactly characterises, for all data of these types with any strings and any depth, which data can be exported (no U+000B, at most 10000 levels) and which then comes back unchanged (all strings in UTF-8), given the documented contract of strconv.FormatFloat."
  },
  {
   "property": "C58",
   "status": "proved",
   "theorems": [
    "C58_set",
    "C58_insert",
    "C58_append",
    "C58_must"
   ],
   "note": "For all types and values; the condition on indexes is reach_ok (see C13_exactly)."
  },
  {
   "property": "C59",
   "status": "partial",
   "theorems": [
    "C59_refuted",
    "C59_zero",
    "C59_float64_exactly",
    "C59_float32_exactly"
   ],
   "note": "False: zero is written 0e+00, small numbers keep e-0d, and the float32 nearest to 1e-6 gets an exponent. Exactly which finite floats agree is proved, given that format e writes the letter e and format f does not."
  },
  {
   "property": "C60",
   "status": "partial",
   "theorems": [
    "C60_refuted",
    "C60_setseq_refuted",
    "C60_omit_refuted",
    "C60_omit_lines_refuted",
    "C60_sorted_exactly",
    "C60_keyseq_exactly",
    "C60_setseq_exactly",
    "C60_omit_sorted_exactly",
    "C60_omit_keyseq_exactly",
    "C60_omit_setseq_exactly",
    "C60_sorted_twice",
    "C60_keyseq_twice",
    "C60_setseq_twice",
    "C60_omit_sorted_twice",
    "C60_omit_keyseq_twice",
    "C60_omit_setseq_twice"
   ],
   "note": "False for member names that are not UTF-8, and with OmitNull where a null stands before another member or, indented, where all members are null (witnesses). Exactly when the output is reproduced, for each of the three orders, with and without OmitNull; and the output of the second Marshal is always reproduced. OptSetSequence: outputs below 2^32 bytes, distinct ids."
  },
  {
   "property": "C61",
   "status": "partial",
   "theorems": [
    "C61_text",
    "C61_float32_refuted",
    "C61_float32_exactly",
    "C61_reread",
    "C61_f_lost",
    "C61_contracts"
   ],
   "note": "NewFloat64f as stated. NewFloat32f formats with 64 bits (refuted; exactly when that makes no difference). With precision -1 every float comes back for all formats but f, given the contract of strconv.FormatFloat; with f those of C55 are lost."
  },
  {
   "property": "C62",
   "status": "partial",
   "theorems": [
    "C62_set_twice_refuted",
    "C62_commute_refuted",
    "C62_set_twice",
    "C62_commute",
    "C62_set_back",
    "C62_set_back_refuted",
    "C62_insert_delete",
    "C62_append_delete",
    "C62_append_delete_refuted",
    "C62_delete_insert",
    "C62_set_delete",
    "C62_delete_set",
    "C62_same_reads",
    "C62_same_equal",
    "C62_same_text",
    "C62_same_equivalence"
   ],
   "note": "False where Set appends for an index beyond the end (set twice appends twice; two unrelated such writes depend on their order), for the zero Value, and where Append creates the array (the empty array stays). Proved for every document and every path on which Get reads where Set writes (reach_ok, the exact condition of C14), with indexes counted from the start for commutation. Insert/Append/Delete restore the identical value; Set restores it up to the numbers of the order of setting, the order of map entries and the caseless index, and such documents have the same reads, are Equal, and have the same text under an order of the names."
  },
  {
   "property": "C63",
   "status": "proved",
   "theorems": [
    "C63_put_exactly",
    "C63_apart",
    "C63_inside",
    "C63_others",
    "C63_series",
    "C63_from_nothing",
    "C63_one_entry",
    "C63_finite",
    "C63_get_shared",
    "C63_contains_refuted"
   ],
   "note": "Exact for Set, Insert and Append; all other calls keep documents finite; from the empty memory, every pointer obtained by calls none of which closes a document shows contents. C63_contains_refuted: that the value does not contain the receiver is not enough (v.Set(A).At(\"a\",\"x\") with A under \"a\"). Import returns exactly on documents with contents: C28_import_returns."
  },
  {
   "property": "C64",
   "status": "proved",
   "theorems": [
    "C64_get",
    "C64_getters",
    "C64_accessors",
    "C64_set",
    "C64_insert_before",
    "C64_insert_after",
    "C64_append_beginning",
    "C64_append_end",
    "C64_delete",
    "C64_caseless",
    "C64_must",
    "C64_compare",
    "C64_contains",
    "C64_iteration",
    "C64_sort"
   ],
   "note": "Exact conditions in both directions. Paths are lists of parameters that are no slices (C21 covers slices); Contains for a second operand without nil inside. Marshal: C46_marshal_total."
  },
  {
   "property": "C65",
   "status": "proved",
   "theorems": [
    "C65_struct",
    "C65_struct_each",
    "C65_field",
    "C65_field_value",
    "C65_field_omitempty",
    "C65_field_string",
    "C65_field_string_other",
    "C65_field_error",
    "C65_field_unseen",
    "C65_embedded",
    "C65_embedded_nil",
    "C65_embedded_map",
    "C65_embedded_map_refuted",
    "C65_map",
    "C65_field_map",
    "C65_list",
    "C65_field_list",
    "C65_pointers",
    "C65_value"
   ],
   "note": "Laws for each part, composing to whole data. C65_embedded_map covers exported embedded maps; C65_embedded_map_refuted shows that embedded maps, exported or not, are treated differently from encoding/json."
  },
  {
   "property": "C66",
   "status": "proved",
   "theorems": [
    "C66_nil_only",
    "C66_nil_arrives",
    "C66_marshal_panics",
    "C66_nil_only_refuted"
   ],
   "note": "With the conditions in the statement: embedded fields hold structs (one direction), no embedded fields and distinct names (the other). C66_nil_only_refuted: without the first condition an embedded map of an unexported type gives nil from zeros."
  },
  {
   "property": "C67",
   "status": "partial",
   "theorems": [
    "C67_refuted",
    "C67_nil_refuted",
    "C67_capacity_refuted",
    "C67_new_member_refuted",
    "C67_calls",
    "C67_array_partial",
    "C67_in_place_partial",
    "C67_appends_partial",
    "C67_deleting_partial",
    "C67_for_range_arr",
    "C67_object_partial",
    "C67_object_sets_partial",
    "C67_object_deletes_partial",
    "C67_object_deleting",
    "C67_object_deleting_runs",
    "C67_by_set",
    "C67_sort_refuted",
    "C67_sorts_partial",
    "C67_sorting_partial"
   ],
   "note": "False for RangeArray and for members made during RangeObjects, with witnesses; proved in full for ForRangeArr and RangeObjectsBySetSequence; for the others what holds of every callback, and the exact condition for the deleting loop. Calls with one position or key on the iterated value, and SortArray on it."
  },
  {
   "property": "C68",
   "status": "partial",
   "theorems": [
    "C68_refuted",
    "C68_lost_refuted",
    "C68_race_refuted",
    "C68_partial",
    "C68_built",
    "C68_alone",
    "C68_warmed",
    "C68_writes",
    "C68_reads"
   ],
   "note": "False for caseless reading, with witnesses (a missed member, a race, a name lost for good). Proved in every interleaving: case-sensitive lookups are right, found children fit; with complete indexes everything is right, nothing is written and nothing races; a reader alone completes the indexes. Memory accesses are atomic in the model. C68_writes and C68_reads say that what counts as touched in `racing` is what a step really depends on and changes."
  },
  {
   "property": "C69",
   "status": "partial",
   "theorems": [
    "C69_view",
    "C69_windows",
    "C69_write",
    "C69_shown",
    "C69_same",
    "C69_rest",
    "C69_buffer",
    "C69_clean",
    "C69_again_refuted",
    "C69_other_refuted",
    "C69_number_refuted",
    "C69_keys_refuted"
   ],
   "note": "Proved for every text: windows, where they lie, what a later write shows and does not change, what the parser itself changes. Refuted with witnesses: parsing the bytes again, number text against number value, distinct keys after a write."
  },
  {
   "property": "C70",
   "status": "partial",
   "theorems": [
    "C70_get",
    "C70_delete",
    "C70_set",
    "C70_set_arg",
    "C70_insert",
    "C70_append",
    "C70_not_found",
    "C70_never",
    "C70_out_of_range",
    "C70_kind_refuted",
    "C70_new_refuted",
    "C70_target_refuted",
    "C70_range_refuted"
   ],
   "note": "Exact (if and only if) for every call, document, path and error. Refuted with witnesses: the four uniformities that errors.go suggests."
  },
  {
   "property": "C71",
   "status": "proved",
   "theorems": [
    "C71_prefix",
    "C71_cut",
    "C71_after",
    "C71_blank",
    "C71_glued",
    "C71_row",
    "C71_written",
    "C71_number_refuted"
   ],
   "note": "Proved for all texts; bare numbers are excepted in the statement and C71_number_refuted shows that they must be. C71_written: values whose strings are bytes and whose number texts are accepted literals (parsed values and new integers among them), options with blank prefix and indent."
  },
  {
   "property": "C72",
   "status": "proved",
   "theorems": [
    "C72_exactly",
    "C72_same",
    "C72_only",
    "C72_nothing",
    "C72_stray",
    "C72_number",
    "C72_number_refuted",
    "C72_null_refuted",
    "C72_string_refuted"
   ],
   "note": "C72_exactly is an equivalence for all texts, between the class of the error and relations on texts that do not mention the parser. The three _refuted theorems are about the comments of errors.go, which the statement says do not hold."
  },
  {
   "property": "C73",
   "status": "proved",
   "theorems": [
    "C73_exactly",
    "C73_same",
    "C73_document",
    "C73_brackets",
    "C73_stays",
    "C73_bounded_refuted",
    "C73_half_refuted"
   ],
   "note": "Equivalences for all texts and all amounts of stack. The _refuted theorems refute the wish that some amount of stack is enough, for every amount; the statement says that none is."
  },
  {
   "property": "C74",
   "status": "proved",
   "theorems": [
    "C74_compact",
    "C74_parsed",
    "C74_rewrite",
    "C74_six",
    "C74_indent",
    "C74_rewrite_indent",
    "C74_quadratic",
    "C74_linear_refuted"
   ],
   "note": "Bounds for all values whose numbers have a text (only NaN and the infinities have none; their output is text chosen by the caller's options) and all options. The statement says that no linear bound holds with indentation; C74_linear_refuted is that part."
  },
  {
   "property": "C75",
   "status": "partial",
   "theorems": [
    "C75_series",
    "C75_get",
    "C75_kind",
    "C75_compare",
    "C75_contains",
    "C75_float64_partial",
    "C75_beyond_refuted"
   ],
   "note": "All of it for all inputs except Float64, proved for literals with unsigned integers below 2^64 and exponents below 100000 (C75_float64_partial; beyond these C50 itself fails). C75_beyond_refuted is the last sentence of the statement."
  },
  {
   "property": "C76",
   "status": "proved",
   "theorems": [
    "C76_errors",
    "C76_types",
    "C76_distinct",
    "C76_total"
   ],
   "note": "All constants and all integers."
  },
  {
   "property": "C77",
   "status": "proved",
   "theorems": [
    "C77_same",
    "C77_linear"
   ],
   "note": "strconv.ParseFloat and the map are counted as one pass over their bytes; allocation is not counted."
  },
  {
   "property": "C78",
   "status": "proved",
   "theorems": [
    "C78_struct",
    "C78_declared",
    "C78_embedded",
    "C78_encoding_json",
    "C78_text"
   ],
   "note": "The 32-bit counter of C23 limits it to objects with less than 2^32 members. C78_encoding_json is for the data of C35_import_partial. Texts (C78_text): no OptOmitEmpty, no U+000B in strings."
  },
  {
   "property": "C79",
   "status": "proved",
   "theorems": [
    "C79_parsed",
    "C79_string",
    "C79_made",
    "C79_whole",
    "C79_literal_refuted"
   ],
   "note": "C79_literal_refuted: the whole part of the literal itself, as opposed to that of the float it is rounded to, is not what Int returns."
  },
  {
   "property": "C80",
   "status": "partial",
   "theorems": [
    "C80_no_effect",
    "C80_taken_out_partial",
    "C80_refuted"
   ],
   "note": "Under the option itself the tags make no difference, for all data (C80_no_effect). Compared to Import without the option the law holds where every embedded field has an exported name or holds a struct; C80_refuted: an embedded nil pointer to an unexported struct type becomes a null member under the option, without any tag."
  },
  {
   "property": "C81",
   "status": "proved",
   "theorems": [
    "C81_content",
    "C81_values",
    "C81_json"
   ],
   "note": ""
  },
  {
   "property": "C82",
   "status": "partial",
   "theorems": [
    "C82_last",
    "C82_dominance_partial",
    "C82_exactly",
    "C82_refuted",
    "C82_ambiguous_refuted"
   ],
   "note": "False: the last field declared wins, so that a field of the struct itself is lost to a field of the same name in an embedded struct behind it (C82_refuted), and a name that encoding/json drops as ambiguous is kept (C82_ambiguous_refuted). C82_last says what Import does; C82_exactly: it follows the rule exactly if for every name the last field is the dominant one, for fields that all give a value and can be told apart by it. Embedded nil pointers (whose fields the data does not show) and embedded fields that are no structs are left out; see C65."
  },
  {
   "property": "C83",
   "status": "partial",
   "theorems": [
    "C83_apart",
    "C83_exactly",
    "C83_equal",
    "C83_refuted",
    "C83_converse_refuted",
    "C83_omit_apart",
    "C83_omit_equal"
   ],
   "note": "False for texts that are accepted though not UTF-8: two strings with different ill-formed bytes are both written with U+FFFD (C83_refuted). C83_apart covers every value that parsing or the constructors give, with what the text shows as the measure; C83_exactly and C83_equal are the statement for JSON texts. Equal documents may have different texts, 1 and 1.0 (C83_converse_refuted). With options that omit null the same holds of what they leave of the documents (C83_omit_apart, C83_omit_equal)."
  },
  {
   "property": "C84",
   "status": "partial",
   "theorems": [
    "C84_buffer",
    "C84_exact",
    "C84_clean",
    "C84_again_partial",
    "C84_again_refuted"
   ],
   "note": "Proved for every rejected text: the length is kept, which bytes may change, and what exactly is left. That the second call fails again is proved for texts without a backslash and refuted with one: the bytes of an unclosed string become a document."
  },
  {
   "property": "C85",
   "status": "partial",
   "theorems": [
    "C85_marshal",
    "C85_copy",
    "C85_equal_enough",
    "C85_equal_same",
    "C85_equal_exactly",
    "C85_parsed",
    "C85_back",
    "C85_bounded_refuted"
   ],
   "note": "All proved but the last sentence, which is false: for any amount of stack there is a value that uses it up."
  },
  {
   "property": "C86",
   "status": "proved",
   "theorems": [
    "C86_array",
    "C86_object",
    "C86_object_omit",
    "C86_array_plain",
    "C86_object_plain",
    "C86_flat"
   ],
   "note": "C86_object_omit also covers objects of which OptOmitNull leaves members out: commas stand inside the stretches between them only."
  },
  {
   "property": "C87",
   "status": "proved",
   "theorems": [
    "C87_same",
    "C87_appends",
    "C87_two",
    "C87_typed"
   ],
   "note": ""
  },
  {
   "property": "C88",
   "status": "proved",
   "theorems": [
    "C88_replaced",
    "C88_member_added",
    "C88_appended",
    "C88_inserted",
    "C88_deleted"
   ],
   "note": ""
  },
  {
   "property": "C89",
   "status": "proved",
   "theorems": [
    "C89_array",
    "C89_object",
    "C89_array_of",
    "C89_object_of",
    "C89_part"
   ],
   "note": ""
  },
  {
   "property": "C90",
   "status": "proved",
   "theorems": [
    "C90_moved",
    "C90_replaced",
    "C90_member_added",
    "C90_appended",
    "C90_inserted",
    "C90_deleted"
   ],
   "note": ""
  },
  {
   "property": "C91",
   "status": "proved",
   "theorems": [
    "C91_reflexive",
    "C91_transitive",
    "C91_antisymmetric",
    "C91_path",
    "C91_monotone",
    "C91_set",
    "C91_append",
    "C91_delete"
   ],
   "note": ""
  },
  {
   "property": "C92",
   "status": "proved",
   "theorems": [
    "C92_replaced",
    "C92_nulled",
    "C92_over_null",
    "C92_null_null",
    "C92_member_added",
    "C92_appended",
    "C92_inserted",
    "C92_deleted"
   ],
   "note": ""
  },
  {
   "property": "C93",
   "status": "proved",
   "theorems": [
    "C93_unseen",
    "C93_save",
    "C93_json",
    "C93_kept",
    "C93_order",
    "C93_numbered",
    "C93_omit",
    "C93_omit_order"
   ],
   "note": ""
  }
 ]
}