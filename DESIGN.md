# Formal model of go.jsonvalue in Rocq/Coq 8.16.1

The properties are in `properties.jsonl` (C01, C02, ...).  The model and the
proofs are in `rocq/theories`.  `MANIFEST.json` maps each property to the
theorems that settle it.  `seeded/LOG.jsonl` records mutation tests.

## 1. Method

* The model is executable Gallina, written function by function after the Go
  source.  Each definition cites the file and the lines it models, and names
  every simplification.
* Go errors are values (`Err e`), run-time panics are a value (`Panic`), loops
  that are not structurally recursive run on explicit fuel and return `Fuel`
  when it is exhausted; theorems exclude `Panic` and `Fuel` instead of hiding
  them.
* Each property is stated against a small specification that does not use the
  model's helper functions (`Spec*.v`): a relational RFC 8259 grammar, UTF-8 as
  arithmetic on code points, paths over abstract JSON trees, lists and finite
  maps, decimal values as pairs of integers.
* `Prop*.v` contain only the theorem statements, each closed by
  `exact lemma.` with `Print Assumptions` under it, and `Example`s that show
  the hypotheses are met by non-trivial data.
* If a property is false of the code, the theorem is `..._refuted` with a
  witness computed in the model, and the strongest true part is proved under
  `..._partial` (or a guarded name), with the missing part named in the
  MANIFEST note.

## 2. What is modelled

| model file | Go code |
|---|---|
| `Base.v` | result type, byte strings, errors (errors.go), 64/32-bit integer wrapping |
| `Utf8.v` | Go's `for range` over a string (UTF-8 decoding with U+FFFD) |
| `Float64.v` | `strconv.ParseFloat`, integer/float conversions (on `SpecFloat.spec_float`) |
| `Value.v` | `V`, `num`, `children` (jsonvalue.go), constructors (new.go) |
| `Scan.v` | `iter` methods of unmarshal.go, on a mutable buffer with a log of the slices handed out |
| `Unmarshal.v` | `unmarshalWithIter`, arrays, objects (unmarshal.go), the entry points of jsonvalue.go |
| `Pure.v` | not Go code: a parser without buffer that the proofs use as a middle step |
| `Opt.v`, `Defaults.v` | option.go; `Key`, `ParentInfo`, `DefaultStringSequence` of sort.go; the package defaults |
| `Marshal.v` | conv.go (escaping), marshal.go, the object orders of sort.go |
| `KeyMem.v` | marshalling with a less function again, with key paths as slices of shared arrays (newParentInfo of sort.go) |
| `Access.v` | type predicates, number accessors, `Bool`, `String`, `Len` (jsonvalue.go, get.go) |
| `Path.v` | path parameters (conv.go), `Get`, caseless `Get`, typed getters (get.go), index rules of set.go |
| `Edit.v` | set.go, set_must.go, insert_append_delete.go, insert_append_delete_must.go, caseless `Delete` |
| `Compare.v` | compare.go, with the part of the decimal package that it calls |
| `Iter.v` | iteration.go, `SortArray` of sort.go |
| `Contain.v` | beta/contain.go |
| `Base64.v` | base64.StdEncoding, `NewBytes`, `Bytes`, `GetBytes`, `SetBytes` |
| `Pool.v` | jsonvalue_internal.go: the size predictor (atomic steps, any interleaving) and the value pool |
| `Heap.v` | structs at addresses: `Get`, `Set`, `Insert`, `Append`, `Delete`, `SortArray`, `deepCopy` again, with sharing; `UnmarshalJSON`, `UnmarshalBinary` |
| `KeyText.v` | `KeyPath.String` of sort.go, with the function tables of the package defaults |
| `NewObject.v` | `NewObject` with key values (new.go), beta/contain.go with Go data |
| `GoValue.v`, `Import.v` | Go data as package reflect shows it; import_export.go without `Export`; `deepCopy` |
| `Typed.v` | `SetXxx`, `InsertXxx`, `AppendXxx` and their Must forms for the 14 types; `NewInt`, `NewUint`, `NewInt32`, `NewUint32`, `NewFloat32f` |
| `Names.v` | the constants of errors.go with their texts, `ValueType.String` (jsonvalue.go) |
| `Cost.v` | the parser again, counting the bytes it touches; allocation, the pool and error texts are not counted |
| `Stack.v`, `StackOut.v` | the parser, `Marshal`, `Equal` and `deepCopy` again, with a number of calls left |
| `Writer.v` | `Marshal` again with the state the code has: the buffer of internal/buffer, the counter of the indentation, the tables of the two key orders |
| `Export.v` | `Export` into an `interface{}` or a `*V`; `json.Unmarshal` as a relation (`SpecExport.v`) |

Not modelled: `Export` into other types than `interface{}` and `*V`, the
texts of errors other than the constants, logging, the capacity of the byte buffer of
internal/buffer, the conversions of internal/unsafe (`StoB` writes one word behind the string
header it is given; the model takes it for a conversion), capacity and sharing of Go slices except in `Scan.v` and `KeyMem.v`, data races
except in `Pool.v`, running out of memory, or of stack except in `Stack.v` and
`StackOut.v`.

External functions that are not part of the repository are modelled by what
they are documented to do, as one of:
a concrete definition (`strconv.ParseFloat` as correct rounding,
`strconv.FormatInt`, base64, decimal comparison, `strings.TrimSpace`,
`strings.Split`), or an argument over which the theorems quantify: `Env`
(`strings.ToLower`, `strconv.FormatFloat`, out-of-range float-to-int
conversion, the float encoder of encoding/json) and `World` (map iteration
order; `sort.Sort` as any algorithm that permutes, and sorts if Less is a strict
weak order).  `ExampleWorld.v` has instances of both.  Nothing is assumed
globally.

Specifications: `SpecJson` (RFC 8259 grammar), `SpecValue` (what a `*V` denotes),
`SpecText` (escaped text), `SpecLax` (the accepted language), `SpecOrder`,
`SpecOut`, `SpecOpts` (options and output), `SpecPath` (paths in abstract JSON), `SpecReach` (indexes that are read where they were written, and shifted paths),
`SpecGet`, `SpecHistory` (sequences of edits), `SpecNum` (decimal values),
`SpecIter`, `SpecContain`, `SpecBase64`, `SpecNil`, `SpecImport`, `SpecFault`
(encoding/json on Go data), `SpecHeap` (reachability and what calls change),
`SpecShare` (documents without sharing, series of requests), `SpecKeys`
(ParentInfo as the less function sees it, and later), `SpecRound` (IEEE 754
rounding of decimals, in integers only), `SpecKeyText`, `SpecNewObject`, `SpecSafe` (series of calls), `SpecFloatText`
(contract of `strconv.FormatFloat`), `SpecLit` (exactly which JSON literals are accepted, and as what),
`SpecSpell` (members in the order written, and when the output is JSON), `SpecFlags`, `SpecTaken` (the number that comparison takes a literal for), `SpecHole`
(numbers without text), `SpecTyped` (the getter of a type), `SpecStdFloat` (how `encoding/json` writes floats), `SpecExport` (what `json.Unmarshal` accepts and stores into an `interface{}`).  `*Proof.v`, `*Facts.v`, `*Claims.v` and the like
are proofs; `Prop*.v` the property theorems.

## 3. Plan per property

| id | model and proof |
|---|---|
| C01 | scanner on fuel; `forall bytes, result <> Panic /\ <> Fuel`; strong induction on remaining length |
| C02 | induction over grammar derivations: parsing `text ++ rest` at the read head yields the tree and stops at `rest` |
| C03 | ghost log of handed-out slices threaded through the scanner; invariant "written region is behind the read head, logged slices are disjoint from it" |
| C04 | marshal output satisfies the grammar relation, by induction over the value |
| C05 | C04 composed with C02 |
| C06, C07 | per code point analysis of the escape writer against the UTF-8 spec |
| C08, C09, C10 | decimal printing/reading lemmas, accumulator modulo 2^64; C09 expected to be refuted for some 20-digit literals, guarded theorem below that |
| C11 | refuted by witness; the accepted language characterised by a lax grammar; one reading per text by induction over two derivations |
| C12 | fold of member insertion against "last binding" map spec; the order by last occurrence refuted for 2^32 members, proved below 2^32 bytes |
| C13-C21, C40 | tree edits against a path semantics of abstract JSON trees |
| C22 | invariant: index present implies index = exact caseless image of key set; induction over operation histories (Get, Set, Insert, Append, Delete, SortArray, UnmarshalJSON, Import, calls on values inside) |
| C23 | invariant over histories with the 32-bit counter written out; refuted on wrap-around, proved below 2^32 sets |
| C24, C39 | any sorter returning a sorted permutation; uniqueness of sorted permutations for strict total orders |
| C25, C26 | decimal comparison as exact comparison of `m * 10^e`; NaN/Inf refutations |
| C27 | case analysis + C01-style no-panic lemmas for the number scanner; refuted for the empty string |
| C28, C45 | heap model, separation of reachable sets |
| C47 | refinement of the tree model by the heap model: footprint of a document without repetition, a place in it can be refilled; induction on the path |
| C48, C49 | refinement of the marshal model by one with a memory of backing arrays; invariant: cells in front of the length at which an array was allocated never change; refuted for longer paths and for Parent |
| C50 | the shift-and-round functions of `SpecFloat` keep the position of the exact number between two multiples of the last place; nearest multiple is nearest binary64; refuted by a 20-digit integer |
| C02, C09, C50 exactly | a text that is JSON and accepted has one tree in both grammars (`JsonLax`); strconv's exponent cut; refusal and content of every literal |
| C04, C06, C30 exactly | the output is the plain spelling of the value with its members rearranged (`OutSpell`); a JSON reading of that spelling is the expected one, byte by byte (`OutExact`) |
| C51 | heap model: the footprint of the new document is disjoint from everything old but the receiver; walks that avoid the receiver are kept |
| C52 | the defaults as a fold over calls; unique readability of the text with the reader of string bodies |
| C54 | invariant: no nil inside; every call ends and keeps it |
| C55 | false; exact set of floats lost, from uniqueness of the nearest float; contract of FormatFloat as a hypothesis, met by the formatters in `ExactFormat.v` and `ShortText.v`; with the shortest-and-closest part of the contract at 2^64 and -2^63 every finite float is decided |
| C56 | false because of U+000B; exact condition from C04, data stored by induction over the tree; Import of it from C35 |
| C57 | false because of U+000B; composition of C35 and C56, floats by uniqueness of the nearest float; `C57_exactly` says for all data of these types (any strings, any depth) which can be exported again and which come back unchanged |
| C58 | C13/C14/C16/C17 on the written value, then one getter theorem per type |
| C59 | false for zero, `e-0d` and one float32; exact by comparing the two case distinctions, floats counted in units of 2^-1074 |
| C53 | as the map case of Import (C35) |
| C60 | the output is a function of the tree shown (`spell`), the tree shown is unique under a strict order, and the accepted grammar gives a text one reading (`LaxSame`); so equal outputs mean equal trees; with OmitNull (`OmitCanonProof`) the tree shown is that of the value with its null members deleted (`SpecOmit`), and what is read back has none |
| C61 | the literal written is read back by C50's uniqueness; refuted for NewFloat32f by its bit size |
| C62 | Set is described by a function on trees (`put` in `LawsProof.v`) for which the laws are inductions over the path; the result of Set is that tree up to `same_doc`; refuted where Set appends for an index beyond the end |
| C63 | On the memory model of `Heap.v`. `bounded` (walks have bounded length), `closes` (the value was put into a container inside it) in `SpecFinite.v`; a bound for the walks after an edit from the bounds before (`FiniteProof.v`); objects keep one entry per name through every call (`FiniteEntry.v`), so finite is the same as having contents. That the condition is not "the value contains the document" is `C63_contains_refuted` |
| C64 | `SpecPanic.v` speaks of shorter Gets only (`nil_on_way`: a proper part of the path leads to nil). Get is shown to go step by step for any value (`PanicProof.v`), then each call is compared with it. For paths of plain parameters (a slice is its elements, C21) and, for Contains, a second operand without nil |
| C65 | `SpecParts.v` relates an imported struct to Imports of its parts (`member`, `plain_field`, `lost`, `void` do not mention the model of Import); `PartsProof.v`, `PartsMore.v`, `PartsRest.v` prove the laws. `C65_embedded_map_refuted` records where the library differs from encoding/json: entries of embedded maps, even unexported ones, become members |
| C66 | `SpecHarbour.v`: `nilled`, `harbours` say which Go data is or has a nil as an element; `embeds_structs` and `distinct` are the conditions. `C66_nil_only_refuted` shows that the first condition is needed |
| C67 | `RangeEdit.v` models the children of an array as a Go slice (backing array, length, capacity; growth is a parameter) and RangeObjects as a relation after Go's rule for ranging over a map that changes. `SpecRangeEdit.v`: `edited`/`changed` say what a call makes of a list/map, `replay`/`oreplay` what the callback must have seen. `C67_calls` ties the slice operations to those of `Edit.v` |
| C68 | `ConcRead.v` splits getFromObjectChildren, initCaselessStorage and addCaselessKey into their accesses to shared memory (the field, the map, the inner map) and runs any number of readers in any interleaving; each access is taken to be atomic, which is more than Go promises for a racing program, so the refutations are the mild cases. `SpecConcRead.v`: `right` says what a lookup should find, `built` that an index is complete, `racing` that two readers are about to touch one place and one of them to write |
| C69 | `NoCopy.v`: the loops of `Unmarshal.v` once more, keeping windows (start, end) in place of bytes; `view buf` reads them. A written-over key is only looked at by listing the object; what a map lookup does after its keys were changed behind its back is not modelled. `SpecNoCopy.v`: `inside`, `apart`, `shows`, `same_but_texts` |
| C70 | `Path.v`, `Edit.v`. `SpecErrors.v`: `stuck`, `set_stuck` (where and why a path ends), `fails` (it gets there), `insert_fails`, `append_fails`. Classes are the exported error constants; errors made with fmt.Errorf, which wrap none of them, are the one class `EOther`. Paths of plain parameters; a slice as path is C21 |
| C71 | `Unmarshal.v`, `Marshal.v`. `SpecCut.v`: `document`, `rejected`; blanks are `lblanks` of `SpecLax.v` (white space and backspace) |
| C72 | `Unmarshal.v`, `Scan.v`. `SpecParseErrors.v`: `doc_fails` and its parts (`char_fails`, `str_fails`, `val_fails`, `arr_fails`, `obj_fails`, `colon_fails`, `member_fails`): the remaining texts that continue nothing, by the grammar of `SpecLax.v`, and the class for each. An error is its class: the sentinel of errors.go that it wraps (`errors.Is`), `EOther` if none; texts and positions in messages are not modelled |
| C73 | `Stack.v`: the loops of `Unmarshal.v` with a number of calls left; starting a container when none is left is `PPanic`. The size of a call frame is not modelled, nor the stack used by the scanners and by the caller (both bounded by constants). `SpecStack.v`: `doc_opens` by the grammar of `SpecLax.v`, `nesting` of a tree, `brackets` of a text |
| C74 | `SpecSize.v`: `mass` (content), `spelled` (every number has a text), `stories` (nesting), plain recursions over the value. Lengths are of the byte string returned; the capacity of buffers is not modelled |
| C75 | `SpecTwin.v`: `twins` (JSON values with Equal true in every order of maps), `same_call`, `same_step`, `same_answer`; the series are those of C54 (`SpecSafe.v`) |
| C76 | `Names.v`. `SpecNames.v`: `rfc_name` |
| C77 | `Cost.v`; the bound is a number, and `C77_same` ties the counting parser to the parser |
| C78 | `SpecSeq.v`: the set sequence is what RangeObjectsBySetSequence shows a callback; the order of encoding/json is that of `SpecImport.enc` |
| C79 | `SpecWhole.v`: the whole part of a float by two inequalities over integers, the ranges of the Go types as powers of two |
| C80 | `SpecIgnore.v`: any function that takes omitempty out of the option list of a tag, applied to every tag of the data |
| C81 | `SpecBulk.v`: a sum over the value |
| C82 | false (the last field declared wins); `SpecCompete.v` states the rule on the flat list of fields with their depths, by induction over the struct with C65 |
| C83 | false for accepted texts that are not UTF-8; proved for JSON by C02 and C06, the text of each determining the document read back |
| C84 | the string scanner's error state carries the buffer as the loop leaves it (`left_by_str`, Scan.v); invariant `fell` of `NoCopyProof.v`: a failing parse is a successful stretch followed by at most one string cut short. That a second call fails too is false for texts with a backslash |
| C85 | `StackOut.v`: the functions of `Marshal.v`, `Compare.v` and `Import.v` with a number of calls left; the size of a frame and the stack used by `sort.Sort`, less functions and the caller are not modelled. Depth of a value: `stories` of `SpecSize.v`. The last sentence is false (`C85_bounded_refuted`) |
| C86 | `SpecPieces.v`: the world and the options of a part (`inside`, `part_opt`, `deeper`), `bracketed` and `commas` for the text; `blind` for less functions that do not look at the path. `stretches` for the members between those that OptOmitNull leaves out |
| C87 | `Writer.v` is the state, and `Marshal.v` the description without it; this justifies the two simplifications of `Marshal.v` (depth as an argument, bytes as a result, key sequence without table). Names of an object have to be distinct, as those of a Go map are |
| C88 | Paths of names and indices. Under OptSetSequence a Set moves the member to the end, under OptOmitNull a null member takes a comma with it (both shown by examples): C90 and C92 |
| C89 | Texts read without an error. Commas may be missing or too many, so a part of an array ends where its number may not go on; a replacement that is a number is put in with a blank on each side (example `C89_blanks_needed`) |
| C90 | Paths of names and indices; documents with a `history` (C23) of fewer than 2^32 settings in an object. OptOmitNull is left out as in C88 |
| C91 | Values of JSON types, `sub` of type *V. Paths of names where documents are compared: elements of arrays count only if they are Equal, and may be elsewhere (examples) |
| C92 | Paths of names and indices; members ordered by name. Which comma is missing is the effect of marshal.go's `firstWritten` reset after a null (C30) |
| C93 | Case-sensitive paths of names and indices; SortArray with functions that do not tell Equal elements apart; a call on a value that Get found goes on with that value alone; the order of setting is kept by saves that write it (`C93_order`), and no call covered here can see it. OptOmitNull is covered for documents without null members (`C93_omit`, `C93_omit_order`; Set is then not called with null, not even for an element of an array). Null members under OptOmitNull, and names outside UTF-8, are left out because there a save can be noticed (both shown by examples) |
| C29 | base64 encode/decode, induction in steps of three bytes |
| C30, C31, C34, C42 | refuted by witness; guarded theorems for the part that holds |
| C32 | erasing white space outside strings from the indented text gives the compact text |
| C33 | interleaving state machine, inductive invariant |
| C35 | abstract Go data type mirroring `reflect` kinds, `Import` against a direct translation |
| C36, C37, C38, C41, C43, C44 | direct induction / case analysis |

## 4. Trusted base

* Coq's kernel (8.16.1).  Every property theorem has a `Print Assumptions` under
  it in `Prop*.v`; the answer is "Closed under the global context" for each of
  them (the claims in MANIFEST.json and all others in these files).  The libraries
  that are loaded contain axioms (coqchk lists `Coq.ssr.ssrunder.Under_rel.*`, a
  sealed module that comes with `ssreflect` in the standard library), none of
  which a theorem depends on.
* The faithfulness of the model to the Go source (by reading, the code is not
  run).  As a check, the repository's own tests are transcribed as `Example`s on
  the model: `TestEdit.v` (set, get, insert, append, delete), `TestParse.v`
  (parsing, numbers, comparison, iteration, containment) and `TestMarshal.v`
  (output, options, `Import`).  Each names the test function and its lines; what
  is left out is the tests of `Export`, the concurrency tests, and comparisons with
  encoding/json beyond the text that the test expects.
* The behaviour of the Go standard library functions listed in section 2 and of
  the decimal package used by compare.go, as described in their definitions.
