{"id": "C01", "title": "Parsing never panics and always terminates", "statement": "Unmarshal, UnmarshalString and UnmarshalNoCopy return either a value with a nil error or a non-nil error on every byte sequence: no index-out-of-range panic, no read or write outside the given bytes, no endless loop. On success the returned value is not the NotExist value; on failure it is a value whose type is NotExist, except for the documented-elsewhere empty input.", "quantifier": "every finite byte sequence (arbitrary, not only UTF-8 or JSON), every nesting depth", "why_tests_cant": "The scanner indexes a slice by hand, writes into it in place and is mutually recursive; the input space is infinite and fuzzing only samples it.", "anchors": ["unmarshal.go:unmarshalWithIter", "unmarshal.go:unmarshalArrayWithIterUnknownEnd", "unmarshal.go:unmarshalObjectWithIterUnknownEnd", "unmarshal.go:iter.parseNumber", "unmarshal.go:iter.parseStrFromBytesForwardWithQuote", "jsonvalue.go:Unmarshal"]}
{"id": "C02", "title": "Every RFC 8259 document is accepted and read correctly", "statement": "If the input is a JSON text of RFC 8259 (any insignificant white space, any escape spelling of strings, well-formed UTF-8) whose integer literals fit int64/uint64 and whose other number literals are finite in binary64, then Unmarshal succeeds and the resulting value is the tree the grammar assigns to the text: same types, same strings after un-escaping (surrogate pairs combined), same array order, same members (last duplicate wins), each number with the numeric value of its literal.", "quantifier": "every derivation of the RFC 8259 grammar", "why_tests_cant": "There are infinitely many spellings of each document; tests check a few dozen.", "anchors": ["unmarshal.go:unmarshalWithIter", "unmarshal.go:iter.handleEscapeStart", "unmarshal.go:iter.handleEscapeUnicodeStartWithEnd", "unmarshal.go:iter.skipBlanks", "unmarshal.go:iter.parseNumber"]}
{"id": "C03", "title": "In-place decoding never corrupts earlier results or unread input", "statement": "The parser decodes strings inside the very buffer it is reading and hands out slices of that buffer. For every input, at the end of the parse each key, string and number source that was handed out still contains the bytes it had when it was produced, the not-yet-read part of the buffer was never modified before it was read, and the buffer keeps its length. Unmarshal and UnmarshalString leave the caller's bytes untouched.", "quantifier": "every byte sequence and every position at which a key, string or number was recognised", "why_tests_cant": "A stale-slice bug shows only for particular mixtures of escapes and nesting; a test compares only final values of chosen inputs.", "anchors": ["unmarshal.go:iter.parseStrFromBytesForwardWithQuote", "unmarshal.go:iter.memcpy", "unmarshal.go:iter.assignASCIICodedRune", "jsonvalue.go:UnmarshalNoCopy"]}
{"id": "C04", "title": "Marshal output is valid RFC 8259 JSON", "statement": "For every value built from strings, finite numbers, booleans, null, arrays and objects, and every combination of HTML-escaping, slash-escaping, UTF-8, indentation and key ordering options (without OmitNull), Marshal succeeds and the bytes are a JSON text of RFC 8259 denoting exactly that value.", "quantifier": "every value tree, every option combination, every map iteration order", "why_tests_cant": "Validity is a claim about all strings (including every byte value), all nestings and all orders.", "anchors": ["marshal.go:V.Marshal", "marshal.go:marshalObject", "marshal.go:marshalArray", "conv.go:escapeStringToBuff"]}
{"id": "C05", "title": "Marshal then Unmarshal gives back the same value", "statement": "Unmarshal(Marshal(v, opts)) succeeds and equals v as JSON (strings with ill-formed UTF-8 have their ill-formed bytes replaced by U+FFFD; objects compare as maps; numbers keep their exact source text).", "quantifier": "every value tree of JSON types with finite numbers, every option combination, every map iteration order", "why_tests_cant": "Composes two infinite state spaces (escape writer, scanner); only induction covers every nesting and every code point.", "anchors": ["marshal.go:V.Marshal", "unmarshal.go:unmarshalWithIter"]}
{"id": "C06", "title": "Escaping options bound the output alphabet", "statement": "Without OptUTF8 every byte of the output is printable ASCII (or indentation white space); with OptUTF8 the output is well-formed UTF-8 and contains no unescaped control character; with HTML escaping on, the bytes < > & never occur in the output; with slash escaping on, every / in a string or key is preceded by a backslash.", "quantifier": "every value tree whose strings are arbitrary bytes, every option combination", "why_tests_cant": "Claims about absence of characters quantify over all strings.", "anchors": ["conv.go:escapeStringToBuff", "option.go:Opt.parseEscapingFuncs", "option.go:OptEscapeHTML", "option.go:OptUTF8"]}
{"id": "C07", "title": "Ill-formed UTF-8 becomes U+FFFD, one per bad byte, and well-formed text is preserved", "statement": "The text of a marshalled string denotes the string's Unicode scalar values in order, where each byte that does not start a well-formed sequence denotes U+FFFD; in particular a well-formed UTF-8 string is denoted exactly.", "quantifier": "every byte string", "why_tests_cant": "All 2^8n byte strings; boundary cases (overlong forms, surrogates, truncated sequences) are too many to list.", "anchors": ["conv.go:escapeStringToBuff", "conv.go:escapeGreaterUnicodeToBuffByUTF16", "conv.go:escapeGreaterUnicodeToBuffByUTF8"]}
{"id": "C08", "title": "64-bit integers round-trip exactly", "statement": "For every int64 i and uint64 u: NewInt64(i).Int64() = i, NewUint64(u).Uint64() = u; marshalling gives the canonical decimal and parsing that text gives a value whose Int64()/Uint64() is i/u again, with IsInteger true and IsNegative exactly when i < 0.", "quantifier": "all 2^64 values of each type", "why_tests_cant": "2^64 cases; the boundary handling in the scanner (20 digits, MinInt64) is special-cased by hand.", "anchors": ["new.go:NewInt64", "new.go:NewUint64", "unmarshal.go:iter.parsePositiveIntResult", "unmarshal.go:iter.parseNegativeIntResult", "marshal.go:marshalNumber"]}
{"id": "C09", "title": "An accepted integer literal has its own value", "statement": "Whenever the parser accepts an integer literal (no fraction or exponent) the value's Uint64 (non-negative) or Int64 (negative) is the mathematical value of the digits; literals that do not fit are rejected.", "quantifier": "every integer literal of any length", "why_tests_cant": "Overflow detection looks only at digit count and a wrapped accumulator; the wrong cases are a sparse set that random tests miss.", "anchors": ["unmarshal.go:iter.parseNumber", "unmarshal.go:iter.parsePositiveIntResult", "unmarshal.go:iter.parseNegativeIntResult"]}
{"id": "C10", "title": "Number text is preserved", "statement": "A number that was parsed is marshalled back with exactly the bytes it was written with (trailing zeros, exponent spelling, precision), anywhere in the document and under every option.", "quantifier": "every accepted number literal, every position in every document", "why_tests_cant": "All literals and all surrounding documents.", "anchors": ["unmarshal.go:iter.parseFloatResult", "marshal.go:marshalFloat64", "marshal.go:marshalNumber"]}
{"id": "C11", "title": "Only JSON is accepted", "statement": "If Unmarshal succeeds then the input is an RFC 8259 text. (Expected by users of a JSON parser; the model refutes it and the exact accepted language is characterised instead.)", "quantifier": "every byte sequence", "why_tests_cant": "A universally quantified rejection claim; tests list a few malformed inputs.", "anchors": ["unmarshal.go:unmarshalArrayWithIterUnknownEnd", "unmarshal.go:unmarshalObjectWithIterUnknownEnd", "unmarshal.go:iter.skipBlanks", "unmarshal.go:iter.handleEscapeStart"]}
{"id": "C12", "title": "Duplicate keys: the last one wins and the set order follows the last occurrence", "statement": "Parsing an object keeps one member per distinct key, its value is the value of the last occurrence, and OptSetSequence output lists the members by last occurrence.", "quantifier": "every sequence of members with arbitrary repetition", "why_tests_cant": "All multiplicity patterns of keys of all lengths.", "anchors": ["unmarshal.go:unmarshalObjectWithIterUnknownEnd", "set.go:setToObjectChildren", "sort.go"]}
{"id": "C13", "title": "Set then Get returns what was set", "statement": "If v.Set(x).At(path...) succeeds then v.Get(path...) returns x and v.MustGet(path...) is x.", "quantifier": "every value tree, every path of string keys and integer indexes (positive and negative), every x", "why_tests_cant": "Paths and trees are unbounded; auto-creation and index rules interact.", "anchors": ["set.go:Setter.At", "set.go:atLastParam", "set.go:atArray", "set.go:atObject", "get.go:V.Get"]}
{"id": "C14", "title": "Set changes nothing else", "statement": "After a successful Set(x).At(path), every path that is neither an extension nor a prefix of the position that was written resolves to exactly what it resolved to before.", "quantifier": "every value tree, every written path, every other path", "why_tests_cant": "A frame property over all pairs of paths.", "anchors": ["set.go:Setter.At", "set.go:setAtIndex", "set.go:setToObjectChildren"]}
{"id": "C15", "title": "A failing mutation leaves the document unchanged", "statement": "If Set(..).At, Insert(..).Before/After, Append(..).InTheBeginning/InTheEnd or Delete returns an error, the document (types, members, order, marshalled text) is the same as before the call.", "quantifier": "every value tree, every path including malformed ones, every operation", "why_tests_cant": "Atomicity must hold on every error path at every depth.", "anchors": ["set.go:Setter.At", "set.go:atObject", "set.go:atArray", "insert_append_delete.go:Inserter.Before", "insert_append_delete.go:Appender.InTheEnd", "insert_append_delete.go:V.Delete"]}
{"id": "C16", "title": "Auto-creation builds exactly the missing containers", "statement": "Set(x).At(keys...) on an object in which the path is missing creates one object per string parameter and one array per integer parameter 0, and nothing more; it fails when a new array would not start at index 0, or when an existing value on the way has the wrong type.", "quantifier": "every tree and every path", "why_tests_cant": "All depths and mixtures of keys and indexes.", "anchors": ["set.go:atObject", "set.go:atArray", "set.go:atLastParam"]}
{"id": "C17", "title": "Index semantics of Get", "statement": "Get(i) on an array of length n returns element i for 0 <= i < n, element n+i for -n <= i < 0, and an ErrOutOfRange error otherwise, for every integer type of parameter; Get(key) on an object returns that member or ErrNotFound; chaining Get(p1, p2) equals Get(p1).Get(p2).", "quantifier": "every value, every path, every Go integer type", "why_tests_cant": "All lengths, all indexes, all integer widths.", "anchors": ["get.go:V.Get", "set.go:posAtIndexForRead", "conv.go:anyToInt"]}
{"id": "C18", "title": "Insert puts the element exactly where asked", "statement": "Insert(x).Before(path, i) / After(path, i) turn the array l ++ r into l ++ [x] ++ r with the split before/after the element i refers to, change no other array element or member, and fail without effect when i does not refer to an element.", "quantifier": "every tree, path, index and x", "why_tests_cant": "All lengths and negative/positive indexes at all depths.", "anchors": ["insert_append_delete.go:Inserter.Before", "insert_append_delete.go:Inserter.After", "insert_append_delete.go:insertToArr"]}
{"id": "C19", "title": "Append adds exactly one element at the chosen end", "statement": "Append(x).InTheEnd(path) makes the array l into l ++ [x], InTheBeginning into x :: l; a missing array is created (as Set would create it) holding only x.", "quantifier": "every tree, path and x", "why_tests_cant": "All lengths and depths, including auto-created containers.", "anchors": ["insert_append_delete.go:Appender.InTheEnd", "insert_append_delete.go:Appender.InTheBeginning"]}
{"id": "C20", "title": "Delete removes exactly the addressed entry", "statement": "Delete(path) removes the addressed member or element: afterwards the key is not found (or the array is l ++ r instead of l ++ [e] ++ r), all other entries are unchanged and keep their order, and Len drops by one.", "quantifier": "every tree and path, every integer type of the last parameter", "why_tests_cant": "All positions in all trees.", "anchors": ["insert_append_delete.go:V.Delete", "insert_append_delete.go:V.delete", "insert_append_delete.go:delFromObjectChildren"]}
{"id": "C21", "title": "A slice parameter is the same path as its elements", "statement": "Passing one slice (of strings, integers or mixed) as the first parameter of Get/Set/Insert/Append/Delete with no further parameter has the same effect and result as passing the elements one by one; passing further parameters after a slice is an error without effect.", "quantifier": "every operation, tree and path", "why_tests_cant": "All paths times all operations.", "anchors": ["conv.go:isSliceAndExtractDividedParams", "conv.go:isSliceAndExtractJointParams", "get.go:get", "set.go:Setter.At"]}
{"id": "C22", "title": "Case-insensitive access stays coherent over any history", "statement": "After any sequence of parsing, Set, Delete, caseless and ordinary Get calls, Caseless().Get(k) finds a member if and only if the object has some key equal to k up to letter case, prefers the exact key if present, and never returns a deleted or overwritten value; ordinary Get is unaffected by caseless calls in between.", "quantifier": "every finite sequence of operations on an object", "why_tests_cant": "An auxiliary index is built lazily and maintained incrementally; the failing histories would be long and specific.", "anchors": ["get.go:initCaselessStorage", "get.go:getFromObjectChildrenCaseless", "jsonvalue.go:addCaselessKey", "jsonvalue.go:delCaselessKey", "insert_append_delete.go:delFromObjectChildren"]}
{"id": "C23", "title": "OptSetSequence lists members in the order of their last Set", "statement": "Marshalling with OptSetSequence outputs the members of each object in the order in which their keys were last set (parsed or Set), regardless of map iteration order.", "quantifier": "every history of sets and deletes, every map iteration order", "why_tests_cant": "The order counter is a fixed-width integer; all histories and all map orders.", "anchors": ["set.go:setToObjectChildren", "sort.go", "option.go:OptSetSequence"]}
{"id": "C24", "title": "Ordering options make the output a function of the value", "statement": "With OptDefaultStringSequence, OptKeySequence, or a strict-total less function, Marshal produces the same bytes for every map iteration order, with members sorted accordingly (OptKeySequence: listed keys first in list order, then the rest in byte order).", "quantifier": "every value tree, every pair of map iteration orders, every key list (with repetitions)", "why_tests_cant": "Go's map order is random; a test sees a handful of orders and objects.", "anchors": ["sort.go:sortStringSliceV", "sort.go:DefaultStringSequence", "marshal.go:marshalObject"]}
{"id": "C25", "title": "Equal is an equivalence on JSON values and means the same JSON", "statement": "On values of JSON types with finite numbers Equal is reflexive, symmetric and transitive, returns true exactly when both denote the same JSON value (objects as maps, arrays in order, numbers by exact decimal value), and is unaffected by member order, number spelling, or caseless caches.", "quantifier": "every pair and triple of value trees", "why_tests_cant": "Three-fold quantification over trees.", "anchors": ["compare.go:V.Equal", "compare.go:numberEqual", "compare.go:objectEqual", "compare.go:arrayEqual"]}
{"id": "C26", "title": "GreaterThan/LessThan form the exact numeric order", "statement": "For finite numbers exactly one of a.LessThan(b), a.Equal(b), a.GreaterThan(b) holds; LessThanOrEqual and GreaterThanOrEqual are the negations of the opposite strict comparison; the order is the order of the exact decimal values of the literals (no binary64 rounding); for non-numbers all are false.", "quantifier": "every pair and triple of number literals", "why_tests_cant": "Precision bugs need literals that round to the same double.", "anchors": ["compare.go:V.GreaterThan", "compare.go:V.LessThan", "compare.go:V.GreaterThanOrEqual", "compare.go:V.LessThanOrEqual"]}
{"id": "C27", "title": "Typed getters obey one contract and never panic", "statement": "GetInt/GetInt64/GetUint.../GetFloat.. of a path succeed exactly when the path resolves to a number; on a string they return the number the string spells together with ErrTypeNotMatch, or 0 and an error when it spells none; on anything else zero and an error; GetString/GetBool/GetArray/GetObject/GetNull likewise succeed exactly on their type. None of them panics.", "quantifier": "every value tree and path, every string content", "why_tests_cant": "Panics depend on the string content found at the path.", "anchors": ["get.go:V.GetInt", "get.go:getNumberAndErrorFromValue", "get.go:getNumberFromNotNumberValue", "get.go:getBoolAndErrorFromValue", "unmarshal.go:parseNumber"]}
{"id": "C28", "title": "Import of a value is an independent copy", "statement": "Importing a *V (or putting it in a Set) through the deep-copying entry points yields a value equal to the original, and later mutations of either one do not show in the other.", "quantifier": "every value tree and every later sequence of mutations on either side", "why_tests_cant": "Aliasing bugs show only for particular later mutations.", "anchors": ["jsonvalue.go:V.deepCopy", "import_export.go:Import"]}
{"id": "C29", "title": "Bytes values round-trip", "statement": "NewBytes(b).Bytes() = b, also after marshal and unmarshal, and GetBytes fails exactly on strings that are not standard base64.", "quantifier": "every byte string of every length", "why_tests_cant": "All lengths modulo 3 and all contents.", "anchors": ["new.go:NewBytes", "jsonvalue.go:V.Bytes", "get.go:V.GetBytes"]}
{"id": "C30", "title": "OptOmitNull removes exactly the null members", "statement": "With OmitNull the output is valid JSON and equals the output for the document with every null object member removed.", "quantifier": "every value tree, every map iteration order and ordering option", "why_tests_cant": "The separator logic depends on which positions the nulls occupy.", "anchors": ["marshal.go:marshalObject", "marshal.go:writeObjectChildren"]}
{"id": "C31", "title": "NaN and Inf policy is applied everywhere", "statement": "Under the default policy Marshal returns an error if and only if the value contains NaN or Inf anywhere; with FloatNaN/Inf handling set to null, string or float, each NaN/Inf is written as configured and the output is valid JSON.", "quantifier": "every value tree with floats at any depth, every policy", "why_tests_cant": "Errors must propagate from any depth.", "anchors": ["marshal.go:marshalFloat64", "marshal.go:marshalNaN", "marshal.go:marshalInf", "marshal.go:marshalArray"]}
{"id": "C32", "title": "Indentation adds only white space", "statement": "Marshal with OptIndent produces the same text as without it up to white space outside strings, in the layout prefix + indent*depth, with empty containers on one line.", "quantifier": "every value tree, every prefix and indent string made of white space", "why_tests_cant": "All shapes of trees.", "anchors": ["marshal.go:writeIndent", "option.go:OptIndent", "marshal.go:marshalArray"]}
{"id": "C33", "title": "The shared size predictor is safe under any interleaving", "statement": "Concurrent Unmarshal calls never make the pool size prediction divide by zero, go negative or overflow: the predicted count of every call stays between 0 and its input length plus one, whatever the interleaving of the atomic loads and stores.", "quantifier": "every number of goroutines, every interleaving, every input size below 2 GiB", "why_tests_cant": "Interleavings of unsynchronised counters cannot be enumerated by tests.", "anchors": ["jsonvalue_internal.go"]}
{"id": "C34", "title": "A failing conversion is reported by Append", "statement": "Append(x) with an x that cannot be converted to JSON returns an error and leaves the array unchanged, as Insert and Set do.", "quantifier": "every unconvertible x, every array and path", "why_tests_cant": "Error-path coverage for arbitrary values.", "anchors": ["insert_append_delete.go:V.Append", "insert_append_delete.go:Appender.InTheEnd"]}
{"id": "C35", "title": "Import maps Go data to JSON as encoding/json does", "statement": "Import of nested maps, slices, pointers, structs (with tags, omitempty and string option), numbers, strings and booleans yields the JSON value with the corresponding shape: map keys become members, slices become arrays in order, nil pointers become null, omitempty drops exactly the empty fields.", "quantifier": "every Go value of the supported kinds, at any nesting", "why_tests_cant": "Reflection-driven recursion over arbitrary data.", "anchors": ["import_export.go:Import", "import_export.go:parse"]}
{"id": "C36", "title": "Range visits every entry exactly once, in order for arrays, and stops when told", "statement": "RangeArray calls the callback with (i, element i) for i = 0.. until it returns false or the end; RangeObjects calls it once for each member until it returns false; ForRange* return the same entries; RangeObjectsBySetSequence goes in set order.", "quantifier": "every array/object, every callback (as a function of what it has seen), every map iteration order", "why_tests_cant": "All callbacks and orders.", "anchors": ["iteration.go:V.RangeArray", "iteration.go:V.RangeObjects", "iteration.go:V.ForRangeArr", "iteration.go:V.ForRangeObj", "iteration.go:V.RangeObjectsBySetSequence"]}
{"id": "C37", "title": "beta.Contains decides sub-structure", "statement": "Contains(v, sub, path...) is true exactly when path resolves in v to w and sub is contained in w: equal scalars, every member of sub contained in the same member of w, or sub's elements being a contiguous run of w's elements.", "quantifier": "every pair of value trees and path", "why_tests_cant": "A recursive decision procedure over pairs of trees.", "anchors": ["beta/contain.go"]}
{"id": "C38", "title": "Options merge left to right and defaults do not leak", "statement": "Marshal(opts...) behaves as the default options overridden by each option in order (the last ordering option wins); SetDefaultMarshalOptions/ResetDefaultMarshalOptions affect only later calls and a per-call option never changes the defaults.", "quantifier": "every sequence of options and of default-setting calls", "why_tests_cant": "All sequences of option values.", "anchors": ["option.go:combineOptions", "option.go:SetDefaultMarshalOptions", "option.go:ResetDefaultMarshalOptions"]}
{"id": "C39", "title": "SortArray sorts", "statement": "SortArray(less) leaves a permutation of the array which is ordered by less whenever less is a strict weak order, and does nothing to non-arrays or with a nil function.", "quantifier": "every array, every less function", "why_tests_cant": "All arrays and all comparison functions.", "anchors": ["sort.go:V.SortArray"]}
{"id": "C40", "title": "Must variants have the same effect as the checked ones", "statement": "MustSet/MustInsert/MustAppend/MustDelete/MustGet and At(path).Set(x) change the document exactly as the error-returning form with the same arguments and never change it when that form would fail.", "quantifier": "every tree, path and argument", "why_tests_cant": "Pairs of APIs over all states.", "anchors": ["set_must.go", "insert_append_delete_must.go", "get.go:V.MustGet"]}
{"id": "C41", "title": "Len and type predicates agree with the content", "statement": "Len is the number of entries of an array or object and 0 otherwise; exactly one of the type predicates IsString/IsNumber/IsObject/IsArray/IsBoolean/IsNull holds for a JSON value and agrees with ValueType; IsInteger/IsFloat/IsNegative/GreaterThanInt64Max describe the number exactly.", "quantifier": "every value reachable through the API", "why_tests_cant": "Number flags are cached separately from the digits.", "anchors": ["jsonvalue.go:V.Len", "jsonvalue.go:V.IsInteger", "jsonvalue.go:V.GreaterThanInt64Max", "jsonvalue.go:V.IsPositive"]}
{"id": "C42", "title": "A failed parse yields a usable NotExist value", "statement": "When Unmarshal/MustUnmarshal fails, the returned *V can be used safely: its ValueType is NotExist and getters on it return errors rather than panic.", "quantifier": "every rejected input, including the empty one", "why_tests_cant": "All rejected inputs.", "anchors": ["jsonvalue.go:MustUnmarshal", "jsonvalue.go:Unmarshal"]}
{"id": "C43", "title": "String() of a value is what users print", "statement": "String() of a string value is its content, of a parsed number its source text, of an object or array a brace/bracket rendering of its children, and never panics on values reachable from the parser.", "quantifier": "every value tree reachable by parsing", "why_tests_cant": "All trees.", "anchors": ["jsonvalue.go:V.String"]}
{"id": "C44", "title": "The less function sees the right key path", "statement": "During Marshal with a MarshalLessFunc every call receives the key path from the root to the object being sorted.", "quantifier": "every value tree, every less function", "why_tests_cant": "Key paths are built by appending to shared slices.", "anchors": ["sort.go:ParentInfo", "sort.go:KeyPath", "marshal.go:marshalObject"]}
{"id": "C45", "title": "Values obtained by Get are live references", "statement": "A container returned by Get (or by Set, Append, Insert) is the one inside the document: mutating it is visible through the parent, and mutating the parent elsewhere does not detach it.", "quantifier": "every heap of values and every sequence of mutations through any reference", "why_tests_cant": "Aliasing over all histories.", "anchors": ["get.go:V.Get", "set.go:Setter.At"]}
{"id": "C46", "title": "Marshal panics on nothing but nil", "statement": "Marshal with any options returns text or an error for every value tree that holds no nil *V, and MustMarshal always returns text for it; in particular for everything that parsing yields.", "quantifier": "every value tree, every combination of options, every order of map iteration", "why_tests_cant": "All trees, options and sort callbacks.", "anchors": ["marshal.go:V.Marshal", "marshal.go:V.marshalToBuffer", "sort.go"]}
{"id": "C47", "title": "A document that shares nothing is its contents", "statement": "As long as no value sits in two places, every call (Get, Set, Insert, Append, Delete, SortArray, UnmarshalJSON, also after any series of earlier calls) returns and leaves behind what its contents alone determine: two documents with equal contents answer the same calls alike, whatever else is in memory, the document stays free of sharing, and nothing outside it changes.", "quantifier": "every memory, every unshared document in it, every argument, every series of calls with new values", "why_tests_cant": "All layouts of memory and all histories; a hidden alias would only show up in a particular combination of calls.", "anchors": ["get.go:V.Get", "set.go:Setter.At", "insert_append_delete.go:Inserter.Before", "insert_append_delete.go:Appender.InTheEnd", "insert_append_delete.go:V.Delete"]}
{"id": "C48", "title": "A key path that the less function keeps stays as it was", "statement": "A ParentInfo.KeyPath that a MarshalLessFunc keeps still tells the same keys after Marshal has returned.", "quantifier": "every value tree, every order of members, every growth of slices", "why_tests_cant": "Whether two paths share an array depends on the depth, on the capacities chosen by the runtime and on what is marshalled later.", "anchors": ["sort.go:newParentInfo", "sort.go:KeyPath", "marshal.go:marshalArray"]}
{"id": "C49", "title": "ParentInfo.Parent is the parent", "statement": "The Parent that a MarshalLessFunc receives is the value that contains the object being sorted.", "quantifier": "every value tree, every less function", "why_tests_cant": "Which value is passed differs between members of objects and elements of arrays, at every depth.", "anchors": ["sort.go:newParentInfo", "sort.go:ParentInfo", "marshal.go:marshalArray"]}
{"id": "C50", "title": "Float64 of a number is the binary64 nearest to its literal", "statement": "After Unmarshal accepts a JSON number literal, Float64() returns the finite binary64 number nearest to the decimal value of the literal (ties to even, sign kept also on zero); a literal with fraction or exponent is refused exactly if it is at least half a unit in the last place above the largest finite number.", "quantifier": "every RFC 8259 number literal, at any place of any document", "why_tests_cant": "There are infinitely many literals and the interesting ones (ties, subnormals, the overflow threshold) are rare; an integer path and a float path compute the value.", "anchors": ["unmarshal.go:parseFloatResult", "unmarshal.go:parseNumber", "jsonvalue.go:Float64"]}
{"id": "C51", "title": "UnmarshalJSON replaces a value in place", "statement": "UnmarshalJSON (and UnmarshalBinary) on an existing *V: if Unmarshal accepts the text, the *V afterwards shows exactly the value Unmarshal returns, every document that contains this *V shows it at every place where the *V sits and is otherwise as before, values obtained earlier from below the *V keep what they showed, and nothing is shared with the text's document or any other; if Unmarshal refuses the text, its error is returned and nothing at all changed.", "quantifier": "every memory (shared values included), every receiver, every byte sequence", "why_tests_cant": "What other references see depends on the whole layout of memory; a test sees one layout.", "anchors": ["marshaler_unmarshaler.go:V.UnmarshalJSON", "marshaler_unmarshaler.go:V.UnmarshalBinary", "marshaler_unmarshaler.go:V.MarshalJSON"]}
{"id": "C52", "title": "KeyPath.String shows the keys", "statement": "KeyPath.String() returns without panic '[', the keys in order separated by one space, ']': integer keys in decimal, string keys as quoted escaped strings; two paths of well-formed keys with the same text are the same path.", "quantifier": "every key path, every history of SetDefaultMarshalOptions, ResetDefaultMarshalOptions and Marshal calls", "why_tests_cant": "The escaping functions it calls come from global state set by earlier calls; keys are unbounded byte strings.", "anchors": ["sort.go:KeyPath.String", "option.go:SetDefaultMarshalOptions", "option.go:ResetDefaultMarshalOptions", "conv.go:escapeStringToBuff"]}
{"id": "C53", "title": "NewObject with key values", "statement": "NewObject(M) returns an object with exactly one member for every entry of the map whose value is nil, a boolean, a (signed or unsigned) integer, a float or a string, showing that value; entries of other kinds are left out; a nil map and no map give the empty object.", "quantifier": "every map, every order in which Go runs through it, further arguments ignored", "why_tests_cant": "Map order is random and the map is unbounded.", "anchors": ["new.go:NewObject", "new.go:parseNewObjectKV"]}
{"id": "C54", "title": "No series of calls panics", "statement": "Starting from a document without nil *V inside (for instance a parsed one), no call of Get, MustGet, Set, Insert, Append, Delete, SortArray, UnmarshalJSON, Marshal, MustMarshal, Len or ValueType, caseless or not, on the document or on what Get returned, panics or fails to return, whatever parameters are passed and however the earlier calls ended, as long as the values put in have no nil *V inside either.", "quantifier": "every start document, every series of calls with every parameters (also of wrong types, slices, nil), every map order and default options at each call", "why_tests_cant": "Unboundedly many series of calls; a panic needs a particular state.", "anchors": ["get.go:V.Get", "set.go:Setter.At", "insert_append_delete.go:Inserter.Before", "insert_append_delete.go:Appender.InTheEnd", "insert_append_delete.go:V.Delete", "sort.go:SortArray", "marshaler_unmarshaler.go:V.UnmarshalJSON", "marshal.go:V.Marshal"]}
{"id": "C55", "title": "Floats survive a text", "statement": "For every finite float64 f, Unmarshal of what Marshal writes for NewFloat64(f) succeeds and its Float64 is f, including the sign of zero.", "quantifier": "every finite float64 (normal, subnormal, zeros), every marshal option set", "why_tests_cant": "2^64 floats; the failing ones are a band of magnitudes written as integers of 20 or 21 digits.", "anchors": ["new.go:NewFloat64", "marshal.go:marshalNumber", "unmarshal.go:iter.parseNumber"]}
{"id": "C56", "title": "Export delivers the value", "statement": "Export of the value of a JSON document (numbers finite as float64, nested at most 10000 deep) into an interface{} succeeds and stores the data that the value shows (nil, bool, float64 nearest to the number, string, []interface{}, map[string]interface{}); into a *V it stores the same JSON value; Import of the exported data gives the value back up to rounding of the numbers.", "quantifier": "every value of JSON types, every default option set without OmitNull, every map order", "why_tests_cant": "All strings, numbers, nestings; the failing inputs hold one particular control character or number texts that only the lax parser accepts.", "anchors": ["import_export.go:Export", "marshal.go:V.Marshal", "import_export.go:Import", "marshaler_unmarshaler.go:V.UnmarshalJSON"]}
{"id": "C57", "title": "Go data survives Import and Export", "statement": "Data made of nil, bool, finite float64, strings in UTF-8, []interface{} and map[string]interface{}, nested at most 10000 deep, comes back unchanged from Import followed by Export into an interface{}.", "quantifier": "every such data, every order in which Go runs through maps, every default option set without OmitNull", "why_tests_cant": "Unbounded trees, all float64 values (each has to survive its decimal text), all strings.", "anchors": ["import_export.go:Import", "import_export.go:Export", "new.go:NewFloat64"]}
{"id": "C58", "title": "Typed writers and typed getters agree", "statement": "A Go value x of type string, []byte, bool, int, int64, int32, uint, uint64, uint32, float64 or float32 (and null, {} and []) that SetXxx(x).At(path) has written without error is returned without error by GetXxx(path), provided no index in the path appends to its array; one written by InsertXxx(x).Before/After(path, i) or AppendXxx(x).InTheBeginning/InTheEnd(path) is returned by GetXxx at its new index; the Must forms leave the same document.", "quantifier": "every document, path, value of each of the types, every order of map iteration", "why_tests_cant": "Fourteen types times all their values times all documents and paths.", "anchors": ["set.go:V.SetString", "insert_append_delete.go:V.InsertString", "insert_append_delete.go:V.AppendString", "set_must.go:V.MustSetString", "get.go:V.GetString", "new.go:NewInt64"]}
{"id": "C59", "title": "New floats are written as encoding/json writes them", "statement": "The text that NewFloat64(f) and NewFloat32(f) store for a finite float is the text that encoding/json writes for it.", "quantifier": "every finite float64 and float32", "why_tests_cant": "2^64 floats; the texts differ for zero, for one float32 next to 1e-6 and for the numbers with a one-digit negative exponent.", "anchors": ["new.go:NewFloat64", "new.go:NewFloat32"]}
{"id": "C60", "title": "Sorted output is reproduced by parsing and marshalling", "statement": "With an option that orders the members (OptDefaultStringSequence, OptKeySequence or OptSetSequence), Marshal of what Unmarshal reads from the output of Marshal gives the same bytes.", "quantifier": "every JSON value, every layout and escape option, every iteration order of the maps in either call", "why_tests_cant": "It fails only for member names that are not UTF-8 and whose replacement moves or merges them; the orders of Go maps differ from run to run.", "anchors": ["marshal.go:marshalObject", "sort.go", "option.go", "unmarshal.go"]}
{"id": "C61", "title": "NewFloat64f and NewFloat32f use the format and precision given", "statement": "NewFloat64f(f, format, prec) stores strconv.FormatFloat(f, format, prec, 64) for the formats f, E, e, G, g and uses g for any other; NewFloat32f does the same for a float32; with precision -1 the float comes back from Marshal and Unmarshal.", "quantifier": "every float, format byte and precision", "why_tests_cant": "2^64 floats, 256 formats.", "anchors": ["new.go:NewFloat64f", "new.go:NewFloat32f", "new.go:validateFloat64Format"]}
{"id": "C62", "title": "Edits in sequence obey the laws of a document store", "statement": "Set at a path after another Set at the same path is the second Set alone; Sets at unrelated paths commute; Set of the value already there changes nothing; Delete undoes Insert, Append and the Set of a new member; Insert, Append or Set of the deleted value undoes Delete; documents that are the same up to this have the same reads, are Equal, and marshal to the same sorted text.", "quantifier": "every document, every pair of values, every pair of paths of keys and indexes", "why_tests_cant": "pairs of edits on unbounded documents at unbounded paths.", "anchors": ["set.go:Set.At", "insert_append_delete.go:Insert", "insert_append_delete.go:Append", "insert_append_delete.go:Delete", "get.go:Get"]}
{"id": "C63", "title": "A document stays finite exactly as long as no value is put into a container inside that value", "statement": "After Set, Insert or Append the document is finite exactly when the value written was not put into (or below a new chain of containers into) a container reachable from that value; all other calls keep finite documents finite; a value may be shared by any number of places, and Get on a document that shares finds what it finds in its contents; a document is finite exactly when it has contents and Import returns a copy of it.", "quantifier": "every memory, every call and every series of calls through any pointers obtained, any parameters", "why_tests_cant": "memories with sharing are unbounded, and a cycle shows itself only as a crash of a later read.", "anchors": ["set.go:Set.At", "insert_append_delete.go:Insert", "insert_append_delete.go:Append", "get.go:Get", "import_export.go:Import"]}
{"id": "C64", "title": "A call panics exactly where the path meets a nil value", "statement": "Get, Delete, Insert and Append panic exactly when a part of the path leads to a nil *V that the call then has to look into (After and InTheBeginning return an error for a nil receiver); Set never panics; a typed getter panics exactly when Get panics, when the value found is nil, or, for numbers, when it is a string of white space; accessors, comparisons, containment, iteration and sorting panic exactly on a nil receiver (or operand looked at) and, for numbers, on a string of white space; Must forms panic exactly when the checked ones do.", "quantifier": "every value, also with nil pointers inside, every path, every environment and order of maps", "why_tests_cant": "an exact condition over all values and all paths; tests only sample places of the nil pointer.", "anchors": ["get.go:Get", "get.go:GetInt", "insert_append_delete.go:Insert.Before", "insert_append_delete.go:Append.InTheEnd", "insert_append_delete.go:Delete", "set.go:Set.At", "compare.go:GreaterThan", "beta/contain.go:Contains", "iteration.go:RangeArray"]}
{"id": "C65", "title": "Import part by part", "statement": "Import of a struct has exactly the members each field would give alone (of several with the same name the last counts). A field that is not embedded gives one member under the name of its tag unless its value is a nil *V or the like, or the tag says omitempty and the value is empty; with 'string' numbers and booleans become their text; embedded structs give the members of their fields, embedded nil pointers null or nothing. Maps, slices, arrays, pointers and interfaces give what their parts give, with the tag of the field applied to every entry and, without omitempty, to every element. Embedded maps are flattened too, even unexported ones, unlike encoding/json.", "quantifier": "every Go datum of the modelled kinds, every tag, every option list, environment and order of maps", "why_tests_cant": "the laws are over all nestings of data and all tags; a test fixes one struct type.", "anchors": ["import_export.go:Import", "import_export.go:parseStructFieldValue", "import_export.go:readFieldTag", "import_export.go:parseMapValue", "import_export.go:parseSliceValue"]}
{"id": "C66", "title": "Which Go data becomes a document on which Marshal panics", "statement": "Import leaves nil *V (and nil values of types with methods) out of objects but keeps them as elements of arrays. For data whose embedded fields hold structs, the document has a nil inside only if the data is such a nil or has one as an element of a slice or array that Import looks at; without embedded fields and with distinct names also conversely. Since Marshal panics exactly on documents with a nil inside, this says exactly when Import followed by Marshal panics. A map embedded under an unexported name is different: zeros in its slices become nil.", "quantifier": "every Go datum of the modelled kinds, every tag, option list, environment and order of maps", "why_tests_cant": "an exact characterisation over all nestings of data; the embedded-map case is reached only with an unusual type.", "anchors": ["import_export.go:parseArrayValue", "import_export.go:parseMapValue", "import_export.go:parseStructAnonymousFieldValue", "import_export.go:shouldOmitEmpty", "marshal.go:Marshal"]}
{"id": "C67", "title": "Edits made by the callback during an iteration", "statement": "Whatever calls the callback of an iteration makes on the iterated value (Set, Insert, Append, Delete, SortArray): the callback is called once for each child that was there at the beginning, with that child, and afterwards the value is what the calls make of it. This holds for ForRangeArr and RangeObjectsBySetSequence. RangeArray reads the live backing array: positions run over the old length, deletions make it skip and repeat elements or deliver nil, and insertions make the result depend on the capacity; it holds for additions at the end, and a deleting loop is right exactly if no two deleted elements are neighbours, one that sorts exactly if the elements reached by then are those that sorting puts there. RangeObjects has Go's rule for maps: right for deleting loops in every order, while new members may or may not be delivered.", "quantifier": "every array and object, every capacity and growth of slices, every order of maps, every callback with state and any calls on the value", "why_tests_cant": "the result depends on the unseen capacity of the slice and on the runtime's order of map iteration; every callback is quantified over.", "anchors": ["iteration.go:RangeArray", "iteration.go:ForRangeArr", "iteration.go:RangeObjects", "iteration.go:RangeObjectsBySetSequence", "insert_append_delete.go:deleteInArr", "insert_append_delete.go:insertToArr", "set.go:setAtIndex"]}
{"id": "C68", "title": "Goroutines reading one document at the same time", "statement": "Goroutines that only read one document (Get, with or without Caseless) at the same time get the answers they would get alone, write nothing that another one reads, and leave the document usable. True for case-sensitive reading. False for Caseless: the first caseless lookup of a missing name builds an index inside the object without a lock, so another reader can miss a member, two readers can write the same field, and a name can be lost from the index for good, so that later calls made by one goroutine miss a member. It holds for caseless reading too once every object in question has been looked into caselessly for a name that it does not have, by a goroutine alone.", "quantifier": "every document, every number of readers, every program of lookups that may depend on the answers, every interleaving and every order of maps", "why_tests_cant": "the interleavings are the scheduler's; the bad ones are windows of a few instructions, and the lost name shows only after a later deletion.", "anchors": ["get.go:getFromObjectChildren", "get.go:initCaselessStorage", "jsonvalue.go:addCaselessKey"]}
{"id": "C69", "title": "A document from UnmarshalNoCopy is a view of the caller's bytes", "statement": "After UnmarshalNoCopy the document holds what Unmarshal of the same text gives. Its keys, strings and number texts are stretches of the caller's bytes, inside them and without a byte in common. A later write by the caller shows in exactly the one text whose stretch holds the byte, and nowhere if none does; kinds, sizes, order, numeric and truth values never change. The parser changes a byte only inside a stretch it hands out, at or behind a backslash of it, so a text without a backslash is left as it was. Not true: that the bytes can be parsed again with the same result (a text with an escape becomes another text, or no document), that a written-over number marshals as the number it is read as, that the keys of an object stay distinct.", "quantifier": "every text, every later content of the buffer", "why_tests_cant": "which bytes of the caller's buffer are shared with which text of the document depends on every key, string, number and escape of it.", "anchors": ["jsonvalue.go:UnmarshalNoCopy", "unmarshal.go:unmarshalWithIter", "unmarshal.go:parseStrFromBytesForwardWithQuote", "unmarshal.go:parseNumber"]}
{"id": "C70", "title": "Which error a call along a path gives", "statement": "For every document and path of plain parameters, the class of the error of Get, Delete, Set, Insert.Before/After and Append.InTheBeginning/InTheEnd is determined by the place where following the path gets stuck: a missing name is ErrNotFound, an index outside the array ErrOutOfRange, something other than a name on an object ErrParameterError, a path through a scalar an error of no class; Set fails instead where it cannot write or build (uninitialised values, an index other than 0 in a chain to be built, an index that would leave a gap), and neither Set nor Append ever answers ErrNotFound. Not true: that a parameter of the wrong kind is always ErrParameterError (a string as an index of an array is an error of no class), that a parameter fails alike in a chain Set builds and in one that is there, that a target that is no array has the same error as the root and at the end of a path, that an index that is out of range for Set stays so with more parameters after it.", "quantifier": "every document, every path, every argument, every error", "why_tests_cant": "the error depends on every value passed on the way and on the kind of each parameter; only the exact place of the first mismatch decides.", "anchors": ["get.go:Get", "set.go:At", "set.go:atObject", "set.go:atArray", "insert_append_delete.go:Before", "insert_append_delete.go:After", "insert_append_delete.go:InTheBeginning", "insert_append_delete.go:InTheEnd", "insert_append_delete.go:delete", "conv.go:anyToInt", "conv.go:anyToString"]}
{"id": "C71", "title": "A document cut short, or with something behind it, is not taken for a document", "statement": "If Unmarshal accepts a text and also the same text with more bytes behind it, then only blanks were added and the value is the same, unless both are bare numbers whose digits go on. So an object, array, string, true, false or null that loses more than blanks at its end is rejected, two documents in a row are rejected, a row of such documents can be taken apart in one way only, and whatever Marshal wrote is rejected when cut at any byte. For bare numbers each of these is false.", "quantifier": "every text, every place to cut it, every text behind it", "why_tests_cant": "the cut may fall anywhere: in a string that looks like brackets, in an escape, in a number inside containers; the parser takes commas as optional and skips unknown bytes of multi-byte sequences, so acceptance of a part is not excluded by brackets being balanced.", "anchors": ["unmarshal.go:unmarshalWithIter", "unmarshal.go:unmarshalObjectWithIterUnknownEnd", "unmarshal.go:unmarshalArrayWithIterUnknownEnd", "jsonvalue.go:Unmarshal", "marshal.go:Marshal"]}
{"id": "C72", "title": "Which error Unmarshal gives", "statement": "For every text the class of the error is the one named by the first place, from the left, where the text can no longer be a document: nothing there at all (ErrNilParameter), a byte that begins nothing or something behind the document (ErrRawBytesUnrecognized), an array or object without end, a name without colon, a colon without name or value (ErrNotArrayValue, ErrNotObjectValue), a word that is not true, false or null (ErrNotValidBoolValue, ErrNotValidNullValue), a broken multi-byte sequence or surrogate pair (ErrIllegalString), a wrong escape, an open string or a wrong number (an error of no class). It depends on the text alone, no other class is given, and after ErrRawBytesUnrecognized for a text that is not blank no continuation of the text gives anything else. Contrary to errors.go, ErrNotValidNumberValue is never given, a four-letter word that begins like null gives ErrNotValidBoolValue, and open strings and wrong escapes do not give ErrIllegalString.", "quantifier": "every text", "why_tests_cant": "the class depends on the first failing place of an unbounded text through any nesting, and on the order of the tests made there (name before colon before value, stray byte before missing name); the project's tests only check that some error is given.", "anchors": ["unmarshal.go:unmarshalWithIter", "unmarshal.go:unmarshalObjectWithIterUnknownEnd", "unmarshal.go:unmarshalArrayWithIterUnknownEnd", "unmarshal.go:parseStrFromBytesForwardWithQuote", "unmarshal.go:parseNumber", "unmarshal.go:parseTrue", "unmarshal.go:parseNull", "errors.go", "jsonvalue.go:Unmarshal"]}
{"id": "C73", "title": "How deep the calls of Unmarshal go", "statement": "Unmarshal makes one call inside another for every container inside another and has no limit of its own. With room for n such calls it runs out of stack, a fatal error in Go, exactly on the texts in which n+1 containers are open at once at some place that is read, whether or not the text goes on to be a document; a document needs exactly as many calls as its tree is nested, never more than the text has opening brackets; otherwise the stack is not seen in the result. No n is enough for all documents: n+1 bytes [ use up n, whatever follows them.", "quantifier": "every text, every amount of stack", "why_tests_cant": "the amount of stack and the nesting of the text are unbounded; a test shows one depth only, and a test that overflows kills the test process.", "anchors": ["unmarshal.go:unmarshalWithIter", "unmarshal.go:unmarshalObjectWithIterUnknownEnd", "unmarshal.go:unmarshalArrayWithIterUnknownEnd", "jsonvalue.go:Unmarshal"]}
{"id": "C74", "title": "How long the output of Marshal gets", "statement": "Count as content of a value the bytes of its names, strings and number texts together with the quotes, brackets and colons any text of it needs. Without indentation the output of Marshal is shorter than six times the content, for all options, orders of members and values whose numbers have a text; what Unmarshal returns has no more content than the text has bytes, so reading and writing again grows a text by less than a factor of six; the factor is the best possible, already for documents of RFC 8259 and the default options. With indentation the output is shorter than content * (8 + length of the prefix + nesting * length of the indentation); no constant factor bounds it: 2(n+1) bytes of brackets give at least n(n+1)/2 indentations.", "quantifier": "every value, text, option and order of the members", "why_tests_cant": "a bound over all values and options; the growth is worst for inputs a test of normal documents does not contain.", "anchors": ["marshal.go:Marshal", "marshal.go:marshalObject", "marshal.go:writeIndent", "conv.go:escapeStringToBuff", "conv.go:escapeGreaterUnicodeToBuffByUTF16"]}
{"id": "C75", "title": "Equal documents cannot be told apart by calls along paths", "statement": "Take two JSON values that are Equal and the same series of calls on both (Get, MustGet, Set, InsertBefore, InsertAfter, Append, Delete, SortArray, UnmarshalJSON, Len, ValueType, going on with a value found; case-sensitive; values put in need only be Equal, and the functions given to SortArray must not tell Equal elements apart). Every call ends alike, with the same error if any, and the documents afterwards are Equal. Get gives Equal values, Len, ValueType, the four order comparisons and beta.Contains the same answer on both, and Float64 of Equal literals is == (where C50 and C25 promise the exact value). It does not go further: Int64, Marshal and Get without regard to case may tell Equal values apart.", "quantifier": "every pair of Equal JSON values, every series of calls, every parameter, every order of members and of sorting", "why_tests_cant": "a statement about pairs of documents and sequences of calls; a call that looked at the text of a number, the number of members ever added or the order of members would only be seen for pairs made for it.", "anchors": ["compare.go:Equal", "get.go:Get", "set.go:Set", "insert_append_delete.go:Append", "insert_append_delete.go:Delete", "sort.go:SortArray", "beta/contain.go:Contains"]}
{"id": "C76", "title": "Error constants and type names can be told apart", "statement": "No two of the exported error constants are the same error (they are strings, compared by content), so == and errors.Is tell them apart. ValueType.String gives each of the six JSON types its name in RFC 8259, different types different names, never panics, and prints every integer that is no type as NotExist is printed.", "quantifier": "every pair of error constants, every ValueType, every int", "why_tests_cant": "a table with two equal entries, or one entry too few, only shows where the two meet.", "anchors": ["errors.go:Error", "jsonvalue.go:ValueType.String"]}
{"id": "C77", "title": "Unmarshal does linear work", "statement": "The number of bytes that Unmarshal reads, writes, moves, hands to strconv.ParseFloat and uses as map keys is at most 7 per byte of its argument plus a constant (6 without the copy), for documents as for refused texts; no text makes it go back over what it has read.", "quantifier": "every byte string", "why_tests_cant": "A text that makes the parser quadratic need not occur in any benchmark.", "anchors": ["unmarshal.go:unmarshalWithIter", "unmarshal.go:iter.skipBlanks", "unmarshal.go:iter.parseStrFromBytesForwardWithQuote", "unmarshal.go:iter.parseNumber", "unmarshal.go:unmarshalObjectWithIterUnknownEnd"]}
{"id": "C78", "title": "Imported structs keep the order of declaration", "statement": "Import sets the members of a struct in the order in which its fields are declared, those of an embedded struct at its place, and of several fields with one name the last one at its own place; this is the order encoding/json writes where the two agree on the members. RangeObjectsBySetSequence shows that order and Marshal with OptSetSequence writes it, at every depth, whatever the order of map iteration. (Objects with less than 2^32 members.)", "quantifier": "every struct value, every Import option, every order of map iteration", "why_tests_cant": "The fields pass through Go maps, whose order changes from run to run; a test sees one run and a few struct types.", "anchors": ["import_export.go:parseStructValue", "import_export.go:parseStructAnonymousFieldValue", "iteration.go:V.RangeObjectsBySetSequence", "sort.go:newSortStringSliceVBySetSeq"]}
{"id": "C79", "title": "The integer getters cut off the fraction", "statement": "Int, Int64, Int32, Uint, Uint64 and Uint32 of a number (of a parsed document, of NewFloat64 and its variants, or spelled by a string) return the integer it is; of a number with fraction or exponent they return the whole part of what Float64 returns, cut towards zero, whenever it fits their type. They always return a number of their type, and the 32-bit ones the low 32 bits of the 64-bit ones. The whole part is that of the float: 0.99999999999999999999 gives 1.", "quantifier": "every document, every string spelling a number, every float", "why_tests_cant": "Literals and floats are unbounded in number, and conversions out of range depend on the platform.", "anchors": ["jsonvalue.go:V.Int", "jsonvalue.go:V.Uint32", "unmarshal.go:parseFloatResult", "new.go:newFloat64f"]}
{"id": "C80", "title": "OptIgnoreOmitempty ignores omitempty and nothing else", "statement": "Import with OptIgnoreOmitempty yields, for any data, what it yields for the same data with the option omitempty taken out of every tag, with or without OptIgnoreOmitempty there.", "quantifier": "every Go value, every set of options", "why_tests_cant": "The flag is handed down through reflection over arbitrary data, together with the other flags of a field.", "anchors": ["option.go:OptIgnoreOmitempty", "import_export.go:ext.shouldOmitEmpty", "import_export.go:readFieldTag", "import_export.go:parseStructAnonymousFieldValue"]}
{"id": "C81", "title": "A parsed document is no bigger than its text", "statement": "The strings, member names and number texts of a parsed document are together not longer than its text, and the number of its values is at most three quarters of the length of the text (half, if the text is JSON), rounded up.", "quantifier": "every accepted byte string", "why_tests_cant": "No finite set of inputs shows that none is blown up.", "anchors": ["unmarshal.go:Unmarshal", "unmarshal.go:iter.parseStrFromBytesForwardWithQuote", "unmarshal.go:unmarshalArrayWithIterUnknownEnd", "unmarshal.go:unmarshalObjectWithIterUnknownEnd"]}
{"id": "C82", "title": "Competing fields follow the rule of Go", "statement": "Where several fields of a struct and of the structs embedded in it have one name in the document, Import uses the field that the rule of Go for promoted fields selects, as encoding/json does: the least deeply embedded one, among equally deep ones the one whose name comes from a tag, and none if that leaves more than one.", "quantifier": "every struct whose embedded fields are structs or pointers to structs, every tag, every Import option", "why_tests_cant": "Struct types of any depth, width and order of fields.", "anchors": ["import_export.go:parseStructValue", "import_export.go:parseStructFieldValue", "import_export.go:parseStructAnonymousFieldValue"]}
{"id": "C83", "title": "Different documents have different texts", "statement": "Marshal loses nothing that makes a difference: if two documents have the same text, under whatever options, they are the same up to the order of members and are Equal; and with an order of the names two documents have the same text exactly if they are the same up to the order of members.", "quantifier": "every pair of documents, every options that do not drop null, every order of the maps", "why_tests_cant": "Pairs of documents and of options; a test shows two texts to differ, never that no two documents collide.", "anchors": ["marshal.go:Marshal", "marshal.go:marshalObject", "conv.go:escapeStringToBuff", "equal.go:Equal"]}
{"id": "C84", "title": "What a failed UnmarshalNoCopy leaves in the caller's bytes", "statement": "A call of UnmarshalNoCopy that returns an error keeps the length of the caller's bytes and changes a byte only inside a string, at or behind a backslash of it: one of the keys, strings and numbers recognised so far, or the string the parse stopped in. Bytes without a backslash are left as they were. A second call with the same bytes fails again.", "quantifier": "every byte sequence that is rejected", "why_tests_cant": "A rejected input can be rejected at any of its bytes, after any number of strings were decoded in place; a test of failures looks at the error and not at the buffer.", "anchors": ["jsonvalue.go:UnmarshalNoCopy", "unmarshal.go:iter.parseStrFromBytesForwardWithQuote", "unmarshal.go:iter.handleEscapeStart"]}
{"id": "C85", "title": "How deep the calls of Marshal, Equal and Import of a value go", "statement": "Marshal and the copy Import makes of a value need as many calls inside each other as the arrays and objects of the value are nested, whatever the options are, and with fewer the program ends. Equal needs no more than the less deep of the two values, and exactly as many as they are deep if they are equal. A stack that was enough to read a text is enough to write, copy and compare what was read; a stack that was enough to write a value is enough to read the text again. Some amount of stack is enough for all values.", "quantifier": "every value, option set, order of map iteration, text and amount of stack", "why_tests_cant": "Running out of stack cannot be recovered from, so a test that meets it does not report a result; a test is about one depth and one size of stack.", "anchors": ["marshal.go:marshalToBuffer", "marshal.go:marshalObject", "marshal.go:marshalArray", "compare.go:objectEqual", "compare.go:arrayEqual", "jsonvalue.go:V.deepCopy", "jsonvalue.go:children.deepCopy"]}
{"id": "C86", "title": "Marshal part by part", "statement": "The text of an array is a bracket, the texts Marshal gives for its elements alone in their order with commas between them, and a bracket; the text of an object of which OptOmitNull leaves nothing out is made in the same way from its names and the texts of its members. Indentation of a part begins one step further to the right and a less function is told the path from the root; otherwise, and with an order that does not look at the path, the options of a part are those of the whole. A part on which Marshal returns an error contributes nothing, and Marshal of the whole panics exactly if it panics on a part.", "quantifier": "every array and object, option set, less function, and order of map iteration", "why_tests_cant": "The writer carries a counter of the depth, the path and the options through the whole document; that none of it reaches a part in another way is a statement about all documents and all options.", "anchors": ["marshal.go:marshalObject", "marshal.go:marshalArray", "marshal.go:writeObjectChildren", "marshal.go:writeIndent", "sort.go:newParentInfo"]}
{"id": "C87", "title": "What the calls inside one Marshal share", "statement": "Marshal writes a document into one buffer, counts the depth in one counter and looks names of OptKeySequence up in one table that is made at the first object. For every value and all options a call for a part only appends to the buffer; what it appends depends neither on what was written before nor on whether the table was made already; afterwards the counter is as before the call, also if the call returned an error that its caller drops. The result of Marshal is that of a description without shared state, and two documents written one after the other with one state are the two texts.", "quantifier": "every value, option set, parent info, path, depth, contents of the buffer and state of the table", "why_tests_cant": "A counter or table that is left wrong shows only in what is written later in the same document; tests compare few documents.", "anchors": ["marshal.go:marshalToBuffer", "marshal.go:marshalObject", "marshal.go:marshalArray", "marshal.go:writeObjectChildren", "marshal.go:writeIndent", "sort.go:newSortStringSliceV", "sort.go:newSortStringSliceVBySetSeq", "internal/buffer/buffer_impl.go:buffer.Write"]}
{"id": "C88", "title": "An edit shows at one place of the text", "statement": "With members ordered by their names (OptDefaultStringSequence or OptKeySequence) and without OptOmitNull, marshalling before and after a successful edit gives two texts that agree but for one place. Set at a path that leads to a value replaces the text of that value by the text of the new one; Set of a new member, Append and Insert put in one piece, Delete takes one piece out: the text of the member or element with the comma and, when indented, the line break next to it. Everything before and after is the same byte for byte, whatever order maps are ranged over.", "quantifier": "every JSON value, every new value, every path of names and indices, every option set of the kind named, with or without indentation", "why_tests_cant": "The claim is about all bytes that were not edited, for every document, position and indentation; tests compare a few small documents.", "anchors": ["set.go:setter.At", "insert_append_delete.go:insert.Before", "insert_append_delete.go:insert.After", "insert_append_delete.go:appender.InTheBeginning", "insert_append_delete.go:appender.InTheEnd", "insert_append_delete.go:V.delete", "marshal.go:marshalObject", "marshal.go:marshalArray", "sort.go:newSortObjectV", "sort.go:newSortStringSliceV"]}
{"id": "C89", "title": "Unmarshal part by part", "statement": "Unmarshal gives an array without error exactly on a pair of brackets, with blanks around it, that holds texts Unmarshal accepts on their own with blanks and commas between them, and the elements are the values it gives for those texts. It gives an object exactly on a pair of braces around such members, and the object is the one NewObject() and Set(value).At(name), once per member in the order of the text, build, OptSetSequence numbers included. So accepted texts joined by commas in brackets or braces are accepted, and the text of any value a path leads to may be replaced by another accepted text, with the document's value changed at that path only.", "quantifier": "every byte slice, every array and object, every path of names and indices, every replacement text", "why_tests_cant": "It says what reading a part in its place has to do with reading it alone, for all texts, depths and lax separators; tests read a few fixed documents.", "anchors": ["jsonvalue.go:Unmarshal", "unmarshal.go:unmarshalWithIter", "unmarshal.go:unmarshalArrayWithIterUnknownEnd", "unmarshal.go:unmarshalObjectWithIterUnknownEnd", "set.go:setter.At"]}
{"id": "C90", "title": "An edit shows at one place of a text in set order", "statement": "Marshalled with OptSetSequence and without OptOmitNull, a document in which no object was set 2^32 times or more changes as follows. Set of a member that is there takes its text out of its place and writes the new text at the end of that object: what stood between moves up unchanged, everything else stays byte for byte, and no object above it is reordered. Set of a new member adds it at the end of its object, also where further containers are built inside it. Set of an array element, Append, Insert and Delete change the text at the one place only and no order. It holds for any earlier calls and whatever order maps are ranged over.", "quantifier": "every document any history of calls leads to, every new value, every path of names and indices, every option set of the kind named, with or without indentation", "why_tests_cant": "The claim is about all bytes that were not edited, for every history, depth and position; tests compare a few small documents.", "anchors": ["set.go:setter.At", "insert_append_delete.go:insert.Before", "insert_append_delete.go:insert.After", "insert_append_delete.go:appender.InTheBeginning", "insert_append_delete.go:appender.InTheEnd", "insert_append_delete.go:V.delete", "marshal.go:marshalObject", "marshal.go:marshalArray"]}
{"id": "C91", "title": "Containment is an order, and documents grow in it", "statement": "beta.Contains is reflexive and transitive, and two values that contain each other are Equal. Contains with a path is Contains of what Get finds there. What contains a value contains, at every path of member names, what the value contains there. After Set of a member that was not there (with all containers built for it) in an object at a path of names, and after Append at either end to an array there, the document contains what it was before; before Delete of a member, or of the first or last element, it contains what it will be.", "quantifier": "every JSON value, every triple of them, every path, every new value, every order maps are ranged over", "why_tests_cant": "Laws relate the answers for all pairs and triples of documents; tests ask for single answers.", "anchors": ["beta/contain.go:Contains", "beta/contain.go:objectHasSubset", "beta/contain.go:arrayHasSubset", "set.go:setter.At", "insert_append_delete.go:appender.InTheEnd", "insert_append_delete.go:V.delete"]}
{"id": "C92", "title": "An edit under OmitNull shows at one place, but for a comma", "statement": "With members ordered by their names and OptOmitNull on or off, marshalling before and after a successful edit gives two texts that agree but for one place. Set at a path that leads to a value replaces its text if neither value is a null member under OptOmitNull. Set of a member to null takes its text out with the commas on both sides, so that its neighbours are no longer separated; Set of a null member to another value puts text and commas in; null to null changes nothing. Append, Insert and Delete in arrays change one piece as without OptOmitNull. Delete of a member takes it out with the comma that belongs to it; Delete of a null that is not written changes nothing, or puts in the comma that was missing there, or, where the object has no other member, takes out the line break; a new null does the reverse.", "quantifier": "every JSON value, every new value, every path of names and indices, every option set of the kind named, with or without indentation", "why_tests_cant": "The claim is about all bytes that were not edited, for every document, position and pattern of nulls; the project's tests of OptOmitNull marshal single documents.", "anchors": ["marshal.go:marshalObject", "set.go:setter.At", "insert_append_delete.go:insert.Before", "insert_append_delete.go:insert.After", "insert_append_delete.go:appender.InTheBeginning", "insert_append_delete.go:appender.InTheEnd", "insert_append_delete.go:V.delete"]}
{"id": "C93", "title": "Storing a document as text between calls cannot be noticed", "statement": "Take any series of Get, MustGet, Set, Insert, Append, Delete, SortArray, Len and ValueType calls on a document or on a value that Get found in it, and put saves at any places in between, where a save marshals the document with any options that do not set OptOmitNull and whose indentation is white space, and carries on with what Unmarshal reads from that text. Every save succeeds, every call ends exactly as in the series without saves (the same success or the same error), and the documents at the end are Equal. If the saves write the members in the order of setting (OptSetSequence), that order survives them too: at the end the documents marshalled with OptSetSequence give the same bytes, as long as no object has 2^32 or more settings. SortArray is called with functions that do not tell Equal elements apart. Saves with OptOmitNull go unnoticed too where no object of the document or of a new value has a null member and Set is never called with null; the order of setting survives them as well. This holds for documents and new values with strings and names in UTF-8 and numbers whose text Unmarshal takes; JSON texts give such documents, and calls and saves keep them so.", "quantifier": "every such document, every series of calls and saves of any length, every path of names and indices, every map iteration order, every option set of the kind named", "why_tests_cant": "The claim is about every series of calls with every placement of saves; the project's tests marshal once, at the end.", "anchors": ["marshal.go:V.Marshal", "unmarshal.go:Unmarshal", "set.go:setter.At", "get.go:get", "insert_append_delete.go:insert.Before", "insert_append_delete.go:insert.After", "insert_append_delete.go:appender.InTheBeginning", "insert_append_delete.go:appender.InTheEnd", "insert_append_delete.go:V.delete", "sort.go:V.SortArray", "get.go:V.MustGet"]}
