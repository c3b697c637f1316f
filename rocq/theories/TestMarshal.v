(** Tests of the repository on marshalling, its options and Import; see
    TestEdit. *)
From Verif Require Import Base Utf8 Float64 Value Scan Opt Marshal Access Path Edit Unmarshal Compare Iter
  Base64 Contain GoValue Import TestKit.

Definition nan : V := new_float64 E S754_nan.
Definition inf (neg : bool) : V := new_float64 E (S754_infinity neg).
Definition obj (l : list (string * V)) : V :=
  fold_left (fun v e => fst (set (snd e) [k (fst e)] v)) l new_object.
Definition infs : V := obj [("+inf"%string, inf false); ("-inf"%string, inf true)].
(** Opt{FloatNaNHandleType: h, FloatNaNToString: s, FloatNaNToFloat: f}, and for infinities *)
Definition nan_opt (h : Z) (s : string) (f : spec_float) : option_ := OOpt {|
  o_omit_null := false; o_ignore_omitempty := false; o_less := None; o_keyseq := [];
  o_setseq := false; o_nan := h; o_nan_str := bs s; o_nan_float := f;
  o_inf := 0; o_inf_pos := []; o_inf_neg := []; o_inf_float := f_zero;
  o_esc := 0; o_indent := false; o_prefix := []; o_indent_str := [] |}.
Definition inf_opt (h : Z) (p n : string) (f : spec_float) : option_ := OOpt {|
  o_omit_null := false; o_ignore_omitempty := false; o_less := None; o_keyseq := [];
  o_setseq := false; o_nan := 0; o_nan_str := []; o_nan_float := f_zero;
  o_inf := h; o_inf_pos := bs p; o_inf_neg := bs n; o_inf_float := f;
  o_esc := 0; o_indent := false; o_prefix := []; o_indent_str := [] |}.

(** /repo/jsonvalue_test.go:88-119 *)
Example testBasicFunction : let v := J "{""message"":""hello, 世界"",""float"":1234.123456789123456789,""true"":true,""false"":false,""null"":null,""obj"":{""msg"":""hi""},""arr"":[""你好"",""world"",null],""uint"":1234,""int"":-1234}" in
  (text [OSetSeq] v "{""message"":""hello, \u4E16\u754C"",""float"":1234.123456789123456789,""true"":true,""false"":false,""null"":null,""obj"":{""msg"":""hi""},""arr"":[""\u4F60\u597D"",""world"",null],""uint"":1234,""int"":-1234}" &&
   str nan "NaN" && str (inf false) "+Inf" && str (inf true) "-Inf")%bool = true.
Proof. vm_compute. reflexivity. Qed.

(** /repo/marshal_test.go:24-109 *)
Example testMarshalFloat64NaN :
  (text_err [] nan && text_err [] (new_float32 E S754_nan) && text_err [nan_opt 80 "" f_zero] nan &&
   text [nan_opt 1 "" (fl false 15 (-1))] nan "1.5" && text [ONaNFloat (fl false 15 (-1))] nan "1.5" &&
   text [nan_opt 3 "" f_zero] nan """NaN""" && text [ONaNStr []] nan """NaN""" &&
   text [nan_opt 3 "not a number" f_zero] nan """not a number""" && text [ONaNStr (bs "not a number")] nan """not a number""" &&
   text [nan_opt 2 "" f_zero] nan "null" && text [ONaNNull] nan "null" && text_err [nan_opt 1 "" S754_nan] nan &&
   text_err [nan_opt 1 "" (S754_infinity false)] nan && text_err [nan_opt 1 "" (S754_infinity true)] nan)%bool = true.
Proof. vm_compute. reflexivity. Qed.

(** /repo/marshal_test.go:111-270 *)
Example testMarshalFloat64Inf_errors :
  (text_err [] (inf false) && text_err [] (new_float32 E (S754_infinity true)) && text_err [inf_opt 80 "" "" f_zero] (inf false) &&
   text_err [inf_opt 80 "" "" f_zero] (inf true) &&
   forallb (fun n => text_err [inf_opt 1 "" "" S754_nan] (inf n) && text_err [inf_opt 1 "" "" (S754_infinity false)] (inf n) &&
                     text_err [inf_opt 1 "" "" (S754_infinity true)] (inf n))%bool [false; true])%bool = true.
Proof. vm_compute. reflexivity. Qed.
(** strings.Contains of both members: here the text in the order of World1 *)
Definition both (o : list option_) (p n : string) : bool :=
  text o infs (String.append "{""+inf"":" (String.append p (String.append ",""-inf"":" (String.append n "}")))).
Example testMarshalFloat64Inf_float :
  (both [inf_opt 1 "" "" (fl false 225 (-2))] "2.25" "-2.25" && both [OInfFloat (fl false 225 (-2))] "2.25" "-2.25")%bool = true.
Proof. vm_compute. reflexivity. Qed.
Example testMarshalFloat64Inf_string :
  (text [inf_opt 3 "" "" f_zero] (inf false) """+Inf""" && text [OInfStr [] []] (inf false) """+Inf""" &&
   text [inf_opt 3 "" "" f_zero] (inf true) """-Inf""" && text [OInfStr [] []] (inf true) """-Inf""" &&
   both [inf_opt 3 "infinity" "" f_zero] """infinity""" """-infinity""" &&
   both [OInfStr (bs "infinity") []] """infinity""" """-infinity""" &&
   both [inf_opt 3 "+mugen" "" f_zero] """+mugen""" """-mugen""" && both [OInfStr (bs "+mugen") []] """+mugen""" """-mugen""" &&
   both [inf_opt 3 "heaven" "hell" f_zero] """heaven""" """hell""" && both [OInfStr (bs "heaven") (bs "hell")] """heaven""" """hell""")%bool = true.
Proof. vm_compute. reflexivity. Qed.
Example testMarshalFloat64Inf_null : (both [inf_opt 2 "" "" f_zero] "null" "null" && both [OInfNull] "null" "null")%bool = true.
Proof. vm_compute. reflexivity. Qed.

(** The text, and reading it gives the member back. *)
Definition there_and_back (v : V) (key value : string) (o : list option_) (s : string) : bool :=
  text o v s && parses s && str (got [k key] (J s)) value.
(** /repo/marshal_test.go:272-316 *)
Example testMarshalEscapeHTML : let key := "<X>&<Y>"%string in let value := "<12, 34> & <56, 78>"%string in
  let v := obj [(key, sstr value)] in
  let esc := "{""\u003CX\u003E\u0026\u003CY\u003E"":""\u003C12, 34\u003E \u0026 \u003C56, 78\u003E""}"%string in
  (there_and_back v key value [] esc && there_and_back v key value [OEscapeHTML true] esc && there_and_back v key value [OEscapeHTML false] "{""<X>&<Y>"":""<12, 34> & <56, 78>""}")%bool = true.
Proof. vm_compute. reflexivity. Qed.
(** /repo/marshal_test.go:318-445 *)
Example testMarshalEscapeUTF8 : let key := "<一>&<二>"%string in let value := "<12, 34> & <56, 78>"%string in
  let v := obj [(key, sstr value)] in
  let esc := "{""\u003C\u4E00\u003E\u0026\u003C\u4E8C\u003E"":""\u003C12, 34\u003E \u0026 \u003C56, 78\u003E""}"%string in
  (there_and_back v key value [] esc && there_and_back v key value [OEscapeHTML true] esc && there_and_back v key value [OEscapeHTML false] "{""<\u4E00>&<\u4E8C>"":""<12, 34> & <56, 78>""}" &&
   there_and_back v key value [OEscapeHTML true; OUTF8] "{""\u003C一\u003E\u0026\u003C二\u003E"":""\u003C12, 34\u003E \u0026 \u003C56, 78\u003E""}" &&
   there_and_back v key value [OEscapeHTML false; OUTF8] "{""<一>&<二>"":""<12, 34> & <56, 78>""}")%bool = true.
Proof. vm_compute. reflexivity. Qed.
(** /repo/marshal_test.go:447-469 *)
Example testMarshalEscapeSlash : let v := sstr "https://google.com" in
  (text [] v """https:\/\/google.com""" && text [OEscapeSlash true] v """https:\/\/google.com""" &&
   text [OEscapeSlash false] v """https://google.com""" && str (J """https:\/\/google.com""") "https://google.com")%bool = true.
Proof. vm_compute. reflexivity. Qed.

(** Lines joined by a line feed *)
Fixpoint lines (l : list string) : bytes :=
  match l with [] => [] | [x] => bs x | x :: r => bs x ++ [10] ++ lines r end.
Definition layout (o : list option_) (v : V) (l : list string) : bool :=
  match marshal E W opt0 o v with Ok b => beqb b (lines l) | _ => false end.
(** /repo/marshal_test.go:471-563, with the output of json.MarshalIndent *)
Example testMarshalIndent_object : let v := fst (set (sstr "Hello, world") [k "obj"; k "obj_in_obj"; k "msg"] new_object) in
  (layout [OIndent [] (bs "  ")] v ["{"; "  ""obj"": {"; "    ""obj_in_obj"": {"; "      ""msg"": ""Hello, world"""; "    }"; "  }"; "}"]%string &&
   layout [OIndent (bs "+") (bs "  ")] v ["{"; "+  ""obj"": {"; "+    ""obj_in_obj"": {"; "+      ""msg"": ""Hello, world"""; "+    }"; "+  }"; "+}"]%string &&
   layout [OIndent [] []] v ["{"; """obj"": {"; """obj_in_obj"": {"; """msg"": ""Hello, world"""; "}"; "}"; "}"]%string)%bool = true.
Proof. vm_compute. reflexivity. Qed.
Example testMarshalIndent_array :
  (layout [OIndent [] (bs "  ")] (J "[1,2,3]") ["["; "  1,"; "  2,"; "  3"; "]"]%string &&
   layout [OIndent (bs "+") (bs "  ")] (J "[1,2,3]") ["["; "+  1,"; "+  2,"; "+  3"; "+]"]%string)%bool = true.
Proof. vm_compute. reflexivity. Qed.

Definition fld (name tag : string) : gfield := GField (bs name) false true false (bs tag).
Definition embedded (name tag : string) (exported struct : bool) : gfield := GField (bs name) true exported struct (bs tag).
Definition hidden (name tag : string) : gfield := GField (bs name) false false false (bs tag).
Definition struct (l : list (gfield * gov)) : gov := GStruct l.
Definition pstruct (l : list (gfield * gov)) : gov := GPtr (Some (GStruct l)).
(** Import without error, and with *)
Definition I_opts (o : list option_) (g : gov) : V := match import E W opt0 o g with Ok (v, None) => v | _ => VUnknown end.
Definition I := I_opts [].
Definition fails (g : gov) : bool := match import E W opt0 [] g with Ok (v, Some _) => negb (is_nil v) | _ => false end.
Definition gs (s : string) : gov := GStr (bs s).

(** /repo/marshal_test.go:511-545: type s struct with arr, obj, str *)
Definition rec_s (arr : option (list gov)) (o : option gov) (s : string) : gov := struct
  [(fld "Arr" "arr,omitempty", GSlice arr); (fld "Obj" "obj,omitempty", GPtr o); (fld "Str" "str,omitempty", gs s)].
Example testMarshalIndent_multiple :
  layout [OIndent [] (bs "  "); opt_default_string_sequence]
   (I (GPtr (Some (rec_s None (Some (rec_s (Some [GIface (GInt 1); GIface (gs "2"); GIface (GPtr (Some (rec_s None None "Lv1.1")))])
                                           (Some (rec_s None None "Lv.2")) "Lv.1")) "Lv.0"))))
   ["{"; "  ""obj"": {"; "    ""arr"": ["; "      1,"; "      ""2"","; "      {"; "        ""str"": ""Lv1.1"""; "      }"; "    ],";
    "    ""obj"": {"; "      ""str"": ""Lv.2"""; "    },"; "    ""str"": ""Lv.1"""; "  },"; "  ""str"": ""Lv.0"""; "}"]%string = true.
Proof. vm_compute. reflexivity. Qed.

(** /repo/marshal_test.go:565-623 *)
Definition controls : list Z := [0; 1; 2; 3; 4; 5; 6; 7; 14; 15; 16; 17; 18; 19; 20; 21; 22; 23; 24; 25; 26; 27; 28; 29; 30; 31; 127].
Definition controls_text : string := "\u0000\u0001\u0002\u0003\u0004\u0005\u0006\u0007\u000E\u000F\u0010\u0011\u0012\u0013\u0014\u0015\u0016\u0017\u0018\u0019\u001A\u001B\u001C\u001D\u001E\u001F\u007F".
Definition quoted (s : string) : string := String.append """" (String.append s """").
Example testMarshalControlCharacters :
  (text [] (VStr controls) (quoted controls_text) &&
   beqb (api_string E W [] (J (quoted controls_text))) controls)%bool = true.
Proof. vm_compute. reflexivity. Qed.
Example testMarshalJSONPAndControlAsciiForUTF8 :
  let s := controls ++ [226; 128; 168; 226; 128; 169] in let t := quoted (String.append controls_text "\u2028\u2029") in
  (text [OUTF8] (VStr s) t && beqb (api_string E W [] (J t)) s)%bool = true.
Proof. vm_compute. reflexivity. Qed.
(** /repo/marshal_test.go:625-656 *)
Example testIssue30 :
  let v := J "{ ""data"": [ { ""basicInfo"": { ""num"": 0, ""str"": """", ""archived"": true } }, { ""basicInfo"": { ""num"": 1, ""str"": """", ""archived"": false } } ] }" in
  match for_range_arr (got [k "data"] v) with
  | Ok l => text [OSetSeq] (fst (set_any (GSlice (Some (map GVal l))) [k "data"] new_object))
      "{""data"":[{""basicInfo"":{""num"":0,""str"":"""",""archived"":true}},{""basicInfo"":{""num"":1,""str"":"""",""archived"":false}}]}"
  | _ => false end = true.
Proof. vm_compute. reflexivity. Qed.

(** /repo/jsonvalue_test.go:121-163 *)
Example testMiscCharacters_marshal :
  let s := [34; 47; 8; 12; 9; 13; 10] ++ bs "<>&你好世界Café" ++ [92; 110] in
  let t := """\""\/\b\f\t\r\n\u003C\u003E\u0026\u4F60\u597D\u4E16\u754CCaf\u00E9\\n"""%string in
  (text [] (VStr s) t && text [] (J t) t && beqb (api_string E W [] (J t)) s)%bool = true.
Proof. vm_compute. reflexivity. Qed.
(** /repo/jsonvalue_test.go:350-360 *)
Example testPercentage : text [] (sstr "%") """%""" = true.
Proof. vm_compute. reflexivity. Qed.

(** /repo/sort_test.go:52-73 *)
Example testSortMarshal :
  let v := obj [("0", sint 0); ("1", sstr "1"); ("2", sint 2); ("3", sstr "3"); ("4", sint 4); ("5", sstr "5"); ("6", sint 6); ("7", sstr "7");
                ("8", sint 8); ("9", sstr "9")]%string in
  text [opt_default_string_sequence] v "{""0"":0,""1"":""1"",""2"":2,""3"":""3"",""4"":4,""5"":""5"",""6"":6,""7"":""7"",""8"":8,""9"":""9""}" = true.
Proof. vm_compute. reflexivity. Qed.
(** /repo/sort_test.go:75-118: the text has a comma in front of a closing brace *)
Definition shorter : less_func := fun _ a b _ _ => Nat.leb (List.length a) (List.length b).
Example testSortMarshal_path :
  let s := "{ ""object!"":{ ""string!!!"": ""a string"", ""object!!"":{ ""array!!!!"":[ 1234, { ""stringBB"":""aa string"", ""stringA"":""a string"", } ] }, ""null"":null } }"%string in
  (parses s && text [OOmitNull true; OLess (Some shorter)] (J s)
    "{""object!"":{""object!!"":{""array!!!!"":[1234,{""stringA"":""a string"",""stringBB"":""aa string""}]},""string!!!"":""a string""}}")%bool = true.
Proof. vm_compute. reflexivity. Qed.
(** /repo/sort_test.go:120-152 *)
Example testSortByStringSlice :
  let v := obj [("friendB", sstr "Beef"); ("friendA", sstr "Fish"); ("daughter", sstr "Mayonnaise"); ("son", sstr "Ketchup"); ("grandpa", sstr "Kentucky");
                ("grandma", sstr "McDonald"); ("father", sstr "Hanberger"); ("mother", sstr "Chips"); ("relative", VNull)]%string in
  text [OOmitNull true; OKeySeq (map bs ["grandpa"; "grandma"; "father"; "mother"; "son"; "daughter"]%string)] v
    "{""grandpa"":""Kentucky"",""grandma"":""McDonald"",""father"":""Hanberger"",""mother"":""Chips"",""son"":""Ketchup"",""daughter"":""Mayonnaise"",""friendA"":""Fish"",""friendB"":""Beef""}" = true.
Proof. vm_compute. reflexivity. Qed.

(** /repo/option_test.go:9-52: options set at start, reset, set again *)
Definition text_default (d : opt) (v : V) (s : string) : bool :=
  match marshal E W d [] v with Ok b => beqb b (bs s) | _ => false end.
Example testOptionReset : let v := J "{""slash"":""/""}" in
  (text_default (set_default [OEscapeSlash false]) v "{""slash"":""/""}" && text_default reset_default v "{""slash"":""\/""}" &&
   text_default (set_default []) v "{""slash"":""\/""}")%bool = true.
Proof. vm_compute. reflexivity. Qed.
(** /repo/option_test.go:54-91 *)
Example testOption_OptSetSequence :
  (text [OSetSeq] (obj [("0", sint 0); ("1", sint 1); ("2", sint 2); ("3", sint 3)]%string) "{""0"":0,""1"":1,""2"":2,""3"":3}" &&
   is_ Nat.eqb (api_len (J "{""one"":1,""two"":2,""three"":3}")) 3%nat &&
   text [OSetSeq] (J "{""one"":1,""two"":2,""three"":3}") "{""one"":1,""two"":2,""three"":3}")%bool = true.
Proof. vm_compute. reflexivity. Qed.
(** /repo/option_test.go:93-140 *)
Definition st : gov := struct
  [(fld "Object" "object,omitempty", GMap None); (fld "Array" "array,omitempty", GSlice None); (fld "String" "string,omitempty", gs "");
   (fld "Bool" "bool,omitempty", GBool false); (fld "Num" "num,omitempty", GFloat32 f_zero); (fld "Null" "null,omitempty", GIface GInvalid)].
Definition has_len (v : V) (n : nat) : bool := is_ Nat.eqb (api_len v) n.
Example testOption_OptIgnoreOmitempty :
  (has_len (I st) 0%nat && typ (I st) TObject && has_len (I_opts [OIgnoreOmitempty] st) 6%nat &&
   (let v := I_opts [OIgnoreOmitempty] (GSlice (Some [st; st])) in
    has_len v 2%nat && has_len (got [i 0] v) 6%nat && has_len (got [i 1] v) 6%nat) &&
   (let v := I_opts [OIgnoreOmitempty] (GMap (Some [(KStr (bs "a"), st); (KStr (bs "b"), st)])) in
    has_len v 2%nat && has_len (got [k "a"] v) 6%nat && has_len (got [k "b"] v) 6%nat))%bool = true.
Proof. vm_compute. reflexivity. Qed.
(** /repo/option_test.go:142-170 *)
Example testOption_Issue29 :
  text [OSetSeq] (I (struct [(fld "Ext" "ext", GVal (obj [("A", sstr "1111"); ("B", sstr "2222")]%string))])) "{""ext"":{""A"":""1111"",""B"":""2222""}}" = true.
Proof. vm_compute. reflexivity. Qed.

(** /repo/import_export_test.go:138-206, with 0.25 for 0.023 *)
Example testImport :
  (forallb (fun p => typ (I (snd p)) TNumber && is_ Z.eqb (api_int E (I (snd p))) (fst p))%bool
     [(1, GInt 1); (2, GUint 2); (3, GInt 3); (4, GUint 4); (9, GInt 9); (10, GUint 10)] &&
   typ (I (gs "hello")) TString && str (I (gs "hello")) "hello" &&
   typ (I (pstruct [(fld "String" "str", gs "world")])) TObject && is_ok beqb (g_str false [k "str"] (I (pstruct [(fld "String" "str", gs "world")]))) (bs "world") &&
   text [opt_default_string_sequence] (I (GMap (Some [(KStr (bs "32"), GIface (GFloat32 (fl false 25 (-2)))); (KStr (bs "64"), GIface (GFloat64 (fl false 25 (-2))))])))
     "{""32"":0.25,""64"":0.25}" &&
   match import E W opt0 [] GOther with Ok (VNotExist, Some _) => true | _ => false end)%bool = true.
Proof. vm_compute. reflexivity. Qed.

(** /repo/import_export_test.go:218-277; json.RawMessage has a method MarshalJSON that returns the bytes *)
Definition raw (s : string) : gov := GJson (MOut (Ok (bs s))).
Example testStructConv_Import_RawAndBytes :
  (let v := I (pstruct [(fld "Raw" "raw", raw "{""message"":""Hello, raw message!""}")]) in
   has_len v 1%nat && is_ok beqb (g_str false [k "raw"; k "message"] v) (bs "Hello, raw message!")) &&
  fails (pstruct [(fld "Raw" "raw", raw "{""message"":""Hello, raw message!""")]) &&
  (let v := I (pstruct [(fld "Bytes" "bytes", GBytes (Some [1; 2; 3; 4]))]) in
   is_ok beqb (g_str false [k "bytes"] v) (bs "AQIDBA==") && is_ok beqb (g_bytes false [k "bytes"] v) [1; 2; 3; 4]) = true.
Proof. vm_compute. reflexivity. Qed.
(** /repo/import_export_test.go:279-323 *)
Example testStructConv_Import_StrangeButSupportedTypes :
  (text [] (I (pstruct [(fld "Ptr" "", GUint 1234)])) "{""Ptr"":1234}" &&
   (let v := I (GMap (Some [(KUint 1, GInt 2); (KUint 2, GInt 3)])) in
    typ v TObject && is_ Z.eqb (api_uint E (got [k "1"] v)) 2 && is_ Z.eqb (api_uint E (got [k "2"] v)) 3) &&
   (let v := I (GMap (Some [(KInt 1, GInt 2); (KInt 2, GInt 3)])) in
    typ v TObject && is_ Z.eqb (api_int E (got [k "1"] v)) 2 && is_ Z.eqb (api_int E (got [k "2"] v)) 3))%bool = true.
Proof. vm_compute. reflexivity. Qed.
(** /repo/import_export_test.go:325-445 *)
Example testStructConv_Import_InvalidTypes : forallb fails
  [pstruct [(fld "C" "", GOther)]; GPtr (Some GOther); GOther; GMapOther; GSlice (Some [GIface (GInt 1); GIface GOther]);
   GSlice (Some [GIface (GInt 1); GIface (GSlice (Some [GIface GOther]))]); GMap (Some [(KStr (bs "complex"), GIface GOther)]);
   GMap (Some [(KStr (bs "obj"), GIface (GMap (Some [(KStr (bs "complex"), GIface GOther)])))])] = true.
Proof. vm_compute. reflexivity. Qed.
(** /repo/import_export_test.go:447-524 *)
Example testStructConv_Import_NormalTypes :
  (let v := I (pstruct [(fld "True" "true", GBool true); (fld "False" "false", GBool false); (fld "Empty" ",omitempty", GBool false); (fld "String" ",string", GBool true)]) in
   is_ok Bool.eqb (g_bool false [k "true"] v) true && is_ok Bool.eqb (g_bool false [k "false"] v) false &&
   is_err_with any (g_bool false [k "Empty"] v) false && is_err_with Bool.eqb (g_bool false [k "String"] v) true) &&
  (let v := I (pstruct [(fld "Int" "int,string", GInt (-100)); (fld "Uint" "uint,string", GUint 10000);
                        (fld "Float32" "float32,string", GFloat32 (fl false 123125 (-3))); (fld "Float64" "float64,string", GFloat64 (fl false 123125 (-3)))]) in
   is_ok beqb (g_str false [k "int"] v) (bs "-100") && is_ok beqb (g_str false [k "uint"] v) (bs "10000") &&
   is_ok beqb (g_str false [k "float32"] v) (bs "123.125") && is_ok beqb (g_str false [k "float64"] v) (bs "123.125")) = true.
Proof. vm_compute. reflexivity. Qed.
(** /repo/import_export_test.go:526-634 *)
Example testStructConv_Import_ArrayAndSlice :
  (text [OSetSeq] (I (GPtr (Some (GSlice (Some [struct [(fld "S" "string", gs "Hello, 01"); (fld "I" "int", GInt 1)]; struct [(fld "S" "string", gs "Hello, 02"); (fld "I" "int", GInt 2)]])))))
     "[{""string"":""Hello, 01"",""int"":1},{""string"":""Hello, 02"",""int"":2}]" &&
   text [] (I (GPtr (Some (GArray [GInt 20320; GInt 22909; GInt 74; GInt 83; GInt 79; GInt 78])))) "[20320,22909,74,83,79,78]" &&
   text [OSetSeq] (I (GMap (Some [(KStr (bs "uint"), GIface (GUint 255)); (KStr (bs "float"), GIface (GFloat32 (fl true 25 (-2)))); (KStr (bs "string"), GIface (gs "Hello, any"));
                            (KStr (bs "bool"), GIface (GBool true)); (KStr (bs "struct"), GIface (struct []))])))
     "{""uint"":255,""float"":-0.25,""string"":""Hello, any"",""bool"":true,""struct"":{}}" &&
   text [OSetSeq] (I (pstruct [(embedded "inner" "" false true, struct [(fld "F" "", GFloat64 (fl false 25 (-2)))]); (fld "I" "", GInt 1024)])) "{""F"":0.25,""I"":1024}" &&
   fails (pstruct [(embedded "inner" "" false true, struct [(fld "Ch" "", GOther)]); (fld "I" "", GInt 0)]))%bool = true.
Proof. vm_compute. reflexivity. Qed.
(** /repo/import_export_test.go:636-720 *)
Definition omit_all (m : gov) (a : gov) : gov := pstruct
  [(fld "I" ",omitempty", GInt 0); (fld "U" ",omitempty", GUint 0); (fld "S" ",omitempty", gs ""); (fld "F" ",omitempty", GFloat64 f_zero);
   (fld "A" ",omitempty", a); (fld "B" ",omitempty", GBool false); (fld "By" ",omitempty", GBytes None);
   (fld "Rw" ",omitempty", raw "null"); (fld "St" ",omitempty", GPtr None); (fld "M" ",omitempty", m); (fld "Null" "null", GPtr None);
   (hidden "priv" "", GInt 0); (fld "Ignore" "-", GBool false)].
Example testStructConv_omitempty :
  (text [] (I (omit_all (GMap None) (GSlice None))) "{""null"":null}" && text [] (I (omit_all (GMap (Some [])) (GSlice (Some [])))) "{""null"":null}" &&
   text [OSetSeq] (I (pstruct [(fld "A" "", GSlice (Some [])); (fld "B" "", GBool false); (fld "By" "", GBytes (Some [])); (fld "St" "", GPtr None);
                               (fld "M" "", GMap (Some [])); (fld "Null" "", GPtr None)]))
     "{""A"":[],""B"":false,""By"":"""",""St"":null,""M"":{},""Null"":null}" &&
   (let v := I (struct [(fld "Int" "int,string", GInt 100); (fld "Bool" "bool,string", GBool true)]) in
    typ (got [k "int"] v) TString && is_ Z.eqb (api_int E (got [k "int"] v)) 100 && typ (got [k "bool"] v) TString &&
    is_ Bool.eqb (api_bool (got [k "bool"] v)) true))%bool = true.
Proof. vm_compute. reflexivity. Qed.
(** /repo/import_export_test.go:722-880 *)
Definition data_of (s : string) : V := I (struct [(fld "Data" "data,omitempty", raw s)]).
Example testStructConv_Import_JSONMarshaler :
  (str (I (raw """2026-01-02T03:04:05Z""")) "2026-01-02T03:04:05Z" && str (got [k "message"] (I (raw "{""message"":""Hello, raw message""}"))) "Hello, raw message" &&
   text [] (I (raw "{""b"":1}")) "{""b"":1}" && text [] (I (raw "{""b"":0}")) "{""b"":0}" && fails (GJson (MOut (Err EOther))) && fails (raw "{""b"":1+1}") &&
   text [] (data_of "0") "{}" && text [] (data_of "1") "{""data"":1}" && text [] (data_of "false") "{}" && text [] (data_of "true") "{""data"":true}" &&
   text [] (data_of """""") "{}" && text [] (data_of """This is a string.""") "{""data"":""This is a string.""}" && text [] (data_of "null") "{}" &&
   text [] (data_of "[]") "{}" && text [] (data_of "[4,3,2,1]") "{""data"":[4,3,2,1]}" && text [] (data_of "{}") "{}" &&
   text [] (data_of "{""some_key"":""some_value""}") "{""data"":{""some_key"":""some_value""}}")%bool = true.
Proof. vm_compute. reflexivity. Qed.
(** /repo/import_export_test.go:933-990 *)
Definition txt (s : string) : gov := GText (MOut (Ok (bs s))).
Example testStructConv_Import_TextMarshaler :
  (text [] (I (txt "Hello, text!")) """Hello, text!""" && fails (GText (MOut (Err EOther))) &&
   text [] (I (struct [(fld "Data" "data,omitempty", txt "Hello, world!")])) "{""data"":""Hello, world!""}" &&
   text [] (I (struct [(fld "Data" "data,omitempty", txt "")])) "{}")%bool = true.
Proof. vm_compute. reflexivity. Qed.
(** /repo/import_export_test.go:1004-1040 *)
Example testImportBugIssue19 :
  text [] (I (struct [(fld "Req" "req,omitempty", pstruct [(fld "IDs" "ids,omitempty", GSlice (Some [GUint 0]))])])) "{""req"":{""ids"":[0]}}" = true.
Proof. vm_compute. reflexivity. Qed.
Example testImportBugIssue22 :
  text [OSetSeq] (I (pstruct [(embedded "inner" "" false true, pstruct [(fld "Name" "", gs "Andrew")]); (fld "Age" "", GInt 0)])) "{""Name"":""Andrew"",""Age"":0}" = true.
Proof. vm_compute. reflexivity. Qed.
(** /repo/import_export_test.go:1055-1265 *)
Definition strs (l : list string) : gov := GSlice (Some (map gs l)).
Example testImportMiscAnonymous :
  (text [OSetSeq] (I (pstruct [(embedded "inner" "" false true, pstruct [(fld "Name" "", gs "Andrew")]); (fld "Age" "", GInt 20)])) "{""Name"":""Andrew"",""Age"":20}" &&
   text [] (I (pstruct [(embedded "inner" "" false true, GPtr None); (fld "Age" "", GInt 20)])) "{""Age"":20}" &&
   text [OSetSeq] (I (pstruct [(embedded "Name" "" true false, gs "Andrew"); (embedded "Age" "" true false, GInt 20); (embedded "Gender" "-" true false, gs "male")]))
     "{""Name"":""Andrew"",""Age"":20}" &&
   text [OSetSeq] (I (pstruct [(embedded "Name" "n" true false, gs "Andrew"); (embedded "Age" "a" true false, GInt 20)])) "{""n"":""Andrew"",""a"":20}" &&
   text [OSetSeq] (I (pstruct [(embedded "name" "n" false false, gs "Andrew"); (fld "Age" "a", GFloat64 (fl false 20 0))])) "{""a"":20}" &&
   text [OSetSeq] (I (pstruct [(embedded "Name" "" true false, strs ["Andrew"; "M"; "C"]%string); (embedded "nickname" "" false false, GSlice None); (fld "Age" "", GInt 20)]))
     "{""Name"":[""Andrew"",""M"",""C""],""Age"":20}" &&
   text [OSetSeq] (I (pstruct [(embedded "Name" "" true false, strs ["Andrew"; "M"; "C"]%string); (embedded "nickname" "" false false, strs ["AMC"]%string); (fld "Age" "", GInt 20)]))
     "{""Name"":[""Andrew"",""M"",""C""],""Age"":20}" &&
   text [OSetSeq] (I (pstruct [(embedded "Name" "" true false, GArray (map gs ["Andrew"; "C"; ""]%string)); (fld "Age" "", GInt 20)])) "{""Name"":[""Andrew"",""C"",""""],""Age"":20}" &&
   text [OSetSeq] (I (pstruct [(embedded "Name" "" true false, GPtr None); (fld "Age" "", GInt 20)])) "{""Name"":null,""Age"":20}" &&
   text [OSetSeq] (I (pstruct [(embedded "Name" "" true false, GPtr (Some (strs ["Andrew"; "M"; "C"]%string))); (fld "Age" "", GInt 20)])) "{""Name"":[""Andrew"",""M"",""C""],""Age"":20}" &&
   fails (pstruct [(embedded "Inner" "" true false, GOther); (fld "Age" "", GInt 0)]))%bool = true.
Proof. vm_compute. reflexivity. Qed.
(** /repo/import_export_test.go:1267-1350 *)
Example testImportExportMiscMarshalerTypes :
  (text [] (I (raw """json.Marshaler""")) """json.Marshaler""" && text [] (I (txt "encoding.TextMarshaler")) """encoding.TextMarshaler""" &&
   text [] (I (GPtr (Some (raw """json.Marshaler""")))) """json.Marshaler""" && text [] (I (GPtr (Some (txt "encoding.TextMarshaler")))) """encoding.TextMarshaler""" &&
   text [] (I (struct [(fld "V" "v", raw """010203040a0b0c0d""")])) "{""v"":""010203040a0b0c0d""}" &&
   text [] (I (struct [(fld "V" "v", txt "010203040a0b0c0d")])) "{""v"":""010203040a0b0c0d""}" &&
   text [] (I (struct [(fld "V" "v,omitempty", GJson MNilPtr)])) "{}" && text [] (I (struct [(fld "V" "v,omitempty", GText MNilPtr)])) "{}")%bool = true.
Proof. vm_compute. reflexivity. Qed.
