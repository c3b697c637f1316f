(** Tests of the repository on parsing, numbers, comparison, iteration and
    containment; see TestEdit. *)
From Verif Require Import Base Utf8 Float64 Value Scan Opt Marshal Access Path Edit Unmarshal Compare Iter
  Base64 Contain GoValue Import TestKit.

(** A number that is read, with Int(); IsFloat. *)
Definition int_of (s : string) (n : Z) (f : bool) : bool :=
  parses s && typ (J s) TNumber && is_ Z.eqb (api_int E (J s)) n && is_ Bool.eqb (api_is_float (J s)) f.
Definition f64_of (s : string) (f : spec_float) : bool :=
  parses s && typ (J s) TNumber && is_ SFeqb (api_float64 E (J s)) f.

(** /repo/unmarshal_iter_test.go:118-270; of the last literal of "overflow" a
    shorter one stands here. *)
Example testUnmarshalFloatErrors_overflow : forallb rejects [
  "-9223372036854775809"; "18446744073709551616"; "-9999999999999999999";
  "9999999999999999999999999999999999999999999999999999999999999999999"]%string = true.
Proof. vm_compute. reflexivity. Qed.
Example testUnmarshalFloatErrors_bad : forallb rejects [
  "01"; "00"; "+1"; "-00"; "1Ee"; "1-"; "-"; "-."; "10-"; "1E"; "1E+"; "1e-"; "1E--"; "1.1+"; "1e2e"]%string = true.
Proof. vm_compute. reflexivity. Qed.
Example testUnmarshalFloatErrors_good :
  (int_of "0" 0 false && int_of "0.0" 0 true && int_of "0.10" 0 true && f64_of "0.10" (fl false 1 (-1)) &&
   int_of "0E0" 0 true && int_of "1" 1 false && int_of "1E1" 10 true && int_of "1E+1" 10 true &&
   int_of "-1" (-1) false && f64_of "-0.25" (fl true 25 (-2)) && int_of "10E-1" 1 true &&
   f64_of "-1e15" (fl true 1 15))%bool = true.
Proof. vm_compute. reflexivity. Qed.
(** /repo/unmarshal_iter_test.go:87-110, by way of Unmarshal *)
Example testIterParseNumber :
  (f64_of "-12345.6789" (fl true 123456789 (-4)) && f64_of "-12345.6789  " (fl true 123456789 (-4)))%bool = true.
Proof. vm_compute. reflexivity. Qed.
(** /repo/unmarshal_iter_test.go:272-292, cut down to the member that is read *)
Example testIssue8 : let v := J "{""tunnels"":[{""proto"":""https"",""metrics"":{""conns"":{""count"":1,""rate1"":5.456067032277228e-19}}}],""uri"":""/api/tunnels""}" in
  (is_ok beqb (g_str false [k "tunnels"; i 0; k "proto"] v) (bs "https") &&
   is_ Bool.eqb (api_is_float (got [k "tunnels"; i 0; k "metrics"; k "conns"; k "rate1"] v)) true &&
   str (got [k "tunnels"; i 0; k "metrics"; k "conns"; k "rate1"] v) "5.456067032277228e-19")%bool = true.
Proof. vm_compute. reflexivity. Qed.

(** /repo/new_test.go:44-67 *)
Example testNewInteger :
  (is_ Z.eqb (api_int E (sint (-1234567))) (-1234567) &&
   is_ Z.eqb (api_uint E (suint 18446744073708317049)) 18446744073708317049 &&
   is_ Z.eqb (api_int32 E (sint (-1234567))) (-1234567) &&
   is_ Z.eqb (api_uint32 E (suint 4293732729)) 4293732729)%bool = true.
Proof. vm_compute. reflexivity. Qed.

(** /repo/new_test.go:103-112 *)
Example testEmptyObjectArray : (text [] new_object "{}" && typ new_object TObject && text [] new_array "[]" && typ new_array TArray)%bool = true.
Proof. vm_compute. reflexivity. Qed.

(** /repo/new_test.go:114-390; in the first text the tabulator and backspace
    are written as bytes *)
Definition raw_text (b : bytes) : bool := match unmarshal_string E b with Ok (_, None) => true | _ => false end.
Example testMiscValue_array : raw_text ([13; 10] ++ bs "[1, 2, 3 ]" ++ [9; 8]) = true.
Proof. vm_compute. reflexivity. Qed.
Example testMiscValue_types :
  (typ (J "{ }") TObject && typ (J " ""hello, world""  ") TString && typ (J "null") TNull && typ (J "true") TBoolean &&
   is_ Bool.eqb (api_bool (J "true")) true && is_ Bool.eqb (api_bool (J "false")) false &&
   parses """\""\\\/\f\t\r\n\b\u0030\uD87E\uDC04""" && typ (got [i 0] (J "[{}]")) TObject &&
   typ (got [k "array"] (J "{""array"":[]}")) TArray)%bool = true.
Proof. vm_compute. reflexivity. Qed.
Definition all_zero (v : V) : bool :=
  is_ Z.eqb (api_int E v) 0 && is_ Z.eqb (api_uint E v) 0 && is_ Z.eqb (api_int64 E v) 0 && is_ Z.eqb (api_uint64 E v) 0 &&
  is_ Z.eqb (api_int32 E v) 0 && is_ Z.eqb (api_uint32 E v) 0 && is_ SFeqb (api_float64 E v) (S754_zero false) &&
  is_ SFeqb (api_float32 E v) (S754_zero false) && is_ Bool.eqb (api_is_float v) false && is_ Bool.eqb (api_is_integer v) false.
Example testMiscValue_string : all_zero (J " ""hello, world""  ") = true.
Proof. vm_compute. reflexivity. Qed.
(** IsNumber, IsFloat, IsNegative, GreaterThanInt64Max *)
Definition kind (v : V) (f n g : bool) : bool :=
  typ v TNumber && is_ Bool.eqb (api_is_float v) f && is_ Bool.eqb (api_is_negative v) n &&
  is_ Bool.eqb (api_is_positive v) (negb n) && is_ Bool.eqb (greater_than_int64_max v) g.
Example testMiscValue_numbers :
  (kind (J "-12345.12345") true true false && kind (J "-1.25e3") true true false &&
   is_ SFeqb (api_float32 E (J "-1.25e3")) (fl true 1250 0) && kind (J "1.25E-1") true false false &&
   is_ SFeqb (api_float32 E (J "1.25E-1")) (fl false 125 (-3)) && kind (J "-12345") false true false &&
   kind (J "12345") false false false && kind (J "18446744073709551615") false false true &&
   is_ Bool.eqb (api_is_float (got [k "float"] (J "{""float"":123.4567}"))) true &&
   is_ Bool.eqb (api_is_integer (got [k "int"] (J "{""int"":123}"))) true &&
   is_ Z.eqb (api_int E (got [k "int"] (J "{""int"":123}"))) 123 &&
   is_ Z.eqb (api_uint E (got [k "uint"] (J "{""uint"":123}"))) 123 &&
   is_ Z.eqb (api_int32 E (got [k "int"] (J "{""int"":123}"))) 123 &&
   is_ Z.eqb (api_uint32 E (got [k "uint"] (J "{""uint"":123}"))) 123 &&
   is_ SFeqb (api_float64 E (got [k "float"] (J "{""float"":123.456}"))) (fl false 123456 (-3)) &&
   is_ Bool.eqb (api_is_negative (got [k "negative"] (J "{""negative"":-123}"))) true &&
   is_ Bool.eqb (api_is_positive (got [k "positive"] (J "{""positive"":123}"))) true &&
   is_ Bool.eqb (greater_than_int64_max (got [k "int"] (J "{""int"":9223372036854775808}"))) true)%bool = true.
Proof. vm_compute. reflexivity. Qed.

(** /repo/new_test.go:460-499 *)
Example testValueError_string :
  (is_ beqb (Ok (api_string E W [] VNotExist)) [] && is_ Z.eqb (api_int E (J """12.ABCD""")) 0 &&
   is_ Z.eqb (api_int E (J """-12ABCD""")) 0 && is_ Z.eqb (api_int E (J "{}")) 0 &&
   is_ Z.eqb (api_int E (J """1234""")) 1234 && is_ Bool.eqb (api_is_number (J """1234""")) false &&
   is_ Bool.eqb (api_is_float (J """1234""")) false && is_ Bool.eqb (api_is_integer (J """1234""")) false &&
   is_ Bool.eqb (api_is_negative (J """1234""")) false && is_ Bool.eqb (api_is_positive (J """1234""")) false &&
   is_ Bool.eqb (greater_than_int64_max (J """1234""")) false)%bool = true.
Proof. vm_compute. reflexivity. Qed.
(** /repo/new_test.go:502-642 *)
Example testValueError_illegal : forallb rejects [
  ""; "\\"; "      "; "1.a"; "1."; ".1"; "-1a"; "11a"; "trUE"; "fAlse"; "nUll"; """too many quote"""""; """"; """\""";
  "{""bool"":tRue}"; "[tRue]"; "[""incompleteString]"; "[   "; "[{   ]"; "[[  224 ]"; "[ [  "; "[224.. ]"; "[224.]";
  "[-18446744073709551615 ]"; "[fASLE ]"; "[tRUE ]"; "[nULL ]"; "[W]"]%string = true.
Proof. vm_compute. reflexivity. Qed.
Example testValueError_nil : match unmarshal E [] with Ok (VNil, Some ErrNilParameter) => true | _ => false end = true.
Proof. reflexivity. Qed.
(** /repo/new_test.go:644-672 *)
Example testValueError_options : (text_err [] VNotExist &&
  text [] (VObj 1 [(bs "null", (0, VNull))] None) "{""null"":null}" &&
  text [OOmitNull true] (VObj 1 [(bs "null", (0, VNull))] None) "{}")%bool = true.
Proof. vm_compute. reflexivity. Qed.
(** /repo/new_test.go:674-743 *)
Example testValueError_kvs : forallb rejects [
  "{true}"; "{:""value""}"; "{""key"" true}"; "{""key"":}"; "{""key"":""value""   "; "{""key"":""value"""; "{""key"":,}";
  "{""key""::""value""}"; "{{}}"; "{""object"":{ILLEGAL}}"; "{""array"":[ILLEGAL]}"; "{[]}"; "{[}"; "{12345}";
  "{""big_int"":-18446744073709551615}"; "{""key"" ""value""}"; "{""key"":""\""}"; "{""key\u"":""value""}"; "{false}";
  "{""false"":fAlse}"; "{null}"; "{""null"":nUll}"; "{true}"; "{""true"":tRue}"]%string = true.
Proof. vm_compute. reflexivity. Qed.

(** /repo/jsonvalue_test.go:118-290 *)
Example testMiscCharacters_slash : (str (J """/""") "/" && str (J """\/""") "/")%bool = true.
Proof. vm_compute. reflexivity. Qed.
Example testMiscCharacters_utf8 : (parses """你好, Café😊""" && str (J """你好, Café😊""") "你好, Café😊")%bool = true.
Proof. vm_compute. reflexivity. Qed.
Definition smile : bytes := bs """😊""".
Example testMiscCharacters_illegal :
  (match unmarshal E smile with Ok (_, None) => true | _ => false end &&
   match unmarshal E (firstn 2 smile) with Ok (_, Some _) => true | _ => false end &&
   match unmarshal E (34 :: Z.lor (nth 1 smile 0) 8 :: skipn 2 smile) with Ok (_, Some _) => true | _ => false end)%bool = true.
Proof. vm_compute. reflexivity. Qed.
Example testMiscCharacters_escapes : forallb rejects [
  """\"; """\u00"; """\u0GAB"; """\U1234"; """\uD83D\uDE0"""; """\uD83D\UDE0A"""; """\uD83D/uDE0A""";
  """\uD83D\uHE0A"""; """\uH83D\uDE0A"""; """\uD83D\u000A"""; """\uD83D\uFFFF"""]%string = true.
Proof. vm_compute. reflexivity. Qed.
Example testMiscCharacters_pair :
  (str (J """\uD83d\uDE0A你好Café😊""") "😊你好Café😊" && parses """\uD83D\uDE0A, smile!""")%bool = true.
Proof. vm_compute. reflexivity. Qed.
Example testMiscCharacters_plus :
  (typ (got [k "number"] (J "{""number"":1}")) TNumber && typ (got [k "number"] (J "{""number"":1E+1}")) TNumber &&
   forallb rejects ["{""number"":+1}"; "{""number"":1+1}"; "{""number"":1E1+1}"; "{""number"":1E1+}"]%string)%bool = true.
Proof. vm_compute. reflexivity. Qed.
(** /repo/jsonvalue_test.go:292-322 *)
Example testMustUnmarshalErrors : (typ (J ":\") TNotExist &&
  match must_unmarshal E (bs ":\") with Ok VNotExist => true | _ => false end && forallb rejects ["tru"; "fals"; "nul"]%string)%bool = true.
Proof. vm_compute. reflexivity. Qed.
(** /repo/jsonvalue_test.go:362-398 *)
Example testMiscInt : let v := J "[1,2,3,4,5,6,7]" in
  (is_ok Z.eqb (g_int false [PUint 2] v) 3 && is_ok Z.eqb (g_int false [PInt 2] v) 3)%bool = true.
Proof. vm_compute. reflexivity. Qed.
(** /repo/jsonvalue_test.go:400-470, by way of Unmarshal *)
Example testUnmarshalWithIter :
  (str (J """hello, 世界""") "hello, 世界" && is_ Bool.eqb (api_bool (J "  true  ")) true && is_ Bool.eqb (api_bool (J "  false  ")) false &&
   raw_text ([13; 9; 10] ++ bs "  null " ++ [13; 9; 8] ++ bs "  ") && is_ Z.eqb (api_int64 E (J " 1234567890 ")) 1234567890 &&
   typ (J " [123, true, false, null, [""array in array""], ""Hello, world!"" ] ") TArray &&
   str (got [k "message"] (J "  {""message"": ""Hello, world!""}	")) "Hello, world!" &&
   str (got [k "arr"; i 4; k "obj"] (J " {""arr"": [1234, true , null, false, {""obj"":""empty object""}]}  ")) "empty object" &&
   str VNil "nil")%bool = true.
Proof. vm_compute. reflexivity. Qed.
(** /repo/jsonvalue_test.go:472-554, the contents of the copies *)
Example testDeepCopy :
  (match deep_copy VNil with VNotExist => true | _ => false end && match deep_copy VNotExist with VNotExist => true | _ => false end &&
   str (deep_copy (sstr "Hello")) "Hello" && str (deep_copy (sint 1234)) "1234" && str (deep_copy (J "12.50")) "12.50" &&
   text [OSetSeq] (deep_copy (J "{""num"":1234,""string"":""hello""}")) "{""num"":1234,""string"":""hello""}" &&
   text [] (deep_copy (J "[1234,""hello""]")) "[1234,""hello""]" && text [] (deep_copy VNull) "null")%bool = true.
Proof. vm_compute. reflexivity. Qed.

(** /repo/marshaler_unmarshaler_test.go:107-152 *)
Example testNegativeFloatingNumbers : let v := J "{""float"":-1.125,""int"":-16}" in
  (is_ SFeqb (api_float64 E (got [k "float"] v)) (fl true 1125 (-3)) && is_ SFeqb (api_float32 E (got [k "float"] v)) (fl true 1125 (-3)) &&
   is_ Z.eqb (api_int E (got [k "float"] v)) (-1) && is_ SFeqb (api_float64 E (got [k "int"] v)) (fl true 16 0) &&
   is_ SFeqb (api_float32 E (got [k "int"] v)) (fl true 16 0) && is_ Z.eqb (api_int E (got [k "int"] v)) (-16))%bool = true.
Proof. vm_compute. reflexivity. Qed.
Example testMiscStringConversion :
  (let v := got [k "number"] (J "{""number"":""""}") in
   is_ Z.eqb (api_int E v) 0 && is_ SFeqb (api_float64 E v) (S754_zero false) && is_ SFeqb (api_float32 E v) (S754_zero false) &&
   is_ Bool.eqb (api_bool v) false) &&
  (let v := J "{""number"":""1234ABCD"", ""T"":""true""}" in
   is_ SFeqb (api_float64 E (got [k "number"] v)) (S754_zero false) &&
   is_ SFeqb (api_float32 E (got [k "number"] v)) (S754_zero false) && is_ Bool.eqb (api_bool (got [k "number"] v)) false &&
   is_ Bool.eqb (api_bool (got [k "T"] v)) true) = true.
Proof. vm_compute. reflexivity. Qed.

(** /repo/compare_test.go:15-62 *)
Example testEqualSimpleTypes :
  (negb (eqv VNil VNil) && negb (eqv VNotExist VNil) && negb (eqv VNotExist VNotExist) && negb (eqv (sstr "Hello!") (sstr "Hello")) &&
   eqv (sstr "Hello!") (sstr "Hello!") && negb (eqv (new_bool true) (new_bool false)) && eqv (new_bool true) (new_bool true) &&
   negb (eqv (new_bool false) (new_bool true)) && eqv (new_bool false) (new_bool false) && eqv new_null new_null &&
   negb (eqv new_object new_array))%bool = true.
Proof. vm_compute. reflexivity. Qed.
(** /repo/compare_test.go:64-89 *)
Example testEqualNumbers : let v1 := J "20.199999999999999289457264239900" in let v2 := sf false 202 (-1) in
  (str v1 "20.199999999999999289457264239900" && str v2 "20.2" && negb (eqv v1 v2) && eqv v2 v2 && eqv (J "10.0") (J "10"))%bool = true.
Proof. vm_compute. reflexivity. Qed.
(** /repo/compare_test.go:91-139 *)
Example testEqualObjectArray :
  (eqv (J "{""obj"":{},""arr"":[]}") (J "{""arr"":[],""obj"":{}}") && eqv (J "{""num"":-1.0}") (J "{""num"":-1}") &&
   eqv (J "{""obj"":{""msg"":""Hello, world!""}}") (J "{""obj"":{""msg"":""Hello, world!""}}") &&
   negb (eqv (J "{""obj"":{""msg"":""Hello, world!""}}") (J "{""obj"":{""Msg"":""Hello, world!""}}")) &&
   negb (eqv (J "{""int"":0,""str"":""""}") (J "{""int"":0}")) && eqv (J "[1,2,3,4]") (J "[1,2,3,4.0]") &&
   eqv (J "[{""msg"":""Hello, world""},2,3,4]") (J "[{""msg"":""Hello, world""},2,3,4]") &&
   negb (eqv (J "[{""msg"":""Hello, world""},2,3,4]") (J "[{""Msg"":""Hello, world""},2,3,4]")) &&
   negb (eqv (J "[2,{""msg"":""Hello, world""},3,4]") (J "[{""msg"":""Hello, world""},2,3,4]")) && negb (eqv (J "[0,0]") (J "[0]")))%bool = true.
Proof. vm_compute. reflexivity. Qed.
(** /repo/compare_test.go:141-252 *)
Definition cmps (f : V -> V -> res bool) (less same more mixed : bool) : bool :=
  let i12 := J "1234" in let f12 := J "1234.0" in let i56 := J "5678" in let f56 := J "5678.0" in let s := J """1234""" in
  forallb (fun p => is_ Bool.eqb (f (fst p) (snd p)) same) [(i12, f12); (f12, i12); (i12, i12)] &&
  forallb (fun p => is_ Bool.eqb (f (fst p) (snd p)) less) [(i12, f56); (f12, i56); (i12, i56); (f12, f56)] &&
  forallb (fun p => is_ Bool.eqb (f (fst p) (snd p)) more) [(i56, f12); (f56, i12); (i56, i12); (f56, f12)] &&
  forallb (fun p => is_ Bool.eqb (f (fst p) (snd p)) mixed) [(i56, s); (s, i56)].
Example testGreaterThan : cmps greater_than false false true false = true.
Proof. vm_compute. reflexivity. Qed.
Example testGreaterThanOrEqual : cmps greater_or_equal false true true false = true.
Proof. vm_compute. reflexivity. Qed.
Example testLessThan : cmps less_than true false false false = true.
Proof. vm_compute. reflexivity. Qed.
Example testLessThanOrEqual : cmps less_or_equal true true false false = true.
Proof. vm_compute. reflexivity. Qed.
(** /repo/example_jsonvalue_test.go:223-235 *)
Example ExampleV_GreaterThanInt64Max :
  (is_ Bool.eqb (greater_than_int64_max (suint 9223372036854775808)) true &&
   is_ Bool.eqb (greater_than_int64_max (suint 9223372036854775807)) false &&
   is_ Bool.eqb (greater_than_int64_max (sint (-9223372036854775807))) false)%bool = true.
Proof. vm_compute. reflexivity. Qed.

(** /repo/iteration_test.go:14-100 *)
Definition none_seen {A} (r : res (list A)) : bool := match r with Ok [] => true | _ => false end.
Example testRangeArray_invalid :
  (none_seen (range_array (sstr "") (Some (fun (l : list (Z * V)) x => (x :: l, true))) []) && none_seen (iter_array (J "invalid")) &&
   none_seen (for_range_arr (J "invalid")) && none_seen (iter_array (got [k "another invalid"; i 1; i 2; i 3; k "oops"] (J "invalid"))) &&
   none_seen (range_array (VArr [VNull]) None (@nil V)))%bool = true.
Proof. vm_compute. reflexivity. Qed.
Example testRangeArray :
  match range_array (J "[1,2,3,4,5,6,7,8,9,10,""11"",""12"",13.0]")
          (Some (fun (n : Z) (x : Z * V) => if is_ Z.eqb (api_int E (snd x)) (fst x + 1) then (n + 1, true) else (n, false))) 0 with
  | Ok n => n =? 13 | _ => false end = true.
Proof. vm_compute. reflexivity. Qed.
Example testRangeArray_broken :
  match range_array (J "[1,2,3,4,5,6,7,8,9,10,""11"",""12"",13.0]")
          (Some (fun (n : Z) (x : Z * V) => if fst x <? 4 then (n + 1, true) else (n, false))) 0 with
  | Ok n => n =? 4 | _ => false end = true.
Proof. vm_compute. reflexivity. Qed.
(** /repo/iteration_test.go:102-186 *)
Example testRangeObject_invalid :
  (none_seen (range_objects W [] (sstr "") (Some (fun (l : list (bytes * V)) x => (x :: l, true))) []) && none_seen (iter_objects W [] (J "invalid")) &&
   none_seen (for_range_obj W [] (J "invalid")) && none_seen (range_objects W [] (J "{""hello"":""world""}") None (@nil V)) &&
   match iter_objects W [] (J "{""hello"":""world""}") with Ok [_] => true | _ => false end)%bool = true.
Proof. vm_compute. reflexivity. Qed.
Example testRangeObject : let v := J "{""number"":12345,""bool"":true,""string"":""hello, world"",""null"":null}" in
  (match range_objects W [] v (Some (fun (l : list bytes) x => (fst x :: l, true))) [] with
   | Ok l => (Nat.eqb (List.length l) 4 && forallb (fun s => existsb (beqb (bs s)) l) ["number"; "bool"; "string"; "null"]%string)%bool
   | _ => false end &&
   match range_objects W [] v (Some (fun (_ : bytes * V) x => (x, negb (beqb (fst x) (bs "string"))))) ([], VNil) with
   | Ok (key, c) => (beqb key (bs "string") && str c "hello, world")%bool | _ => false end)%bool = true.
Proof. vm_compute. reflexivity. Qed.
(** /repo/iteration_test.go:188-232, with 12 members for 50 *)
Example testRangeObjectsBySetSequence :
  let v := fold_left (fun v n => fst (set (sint n) [PStr (format_int n)] v)) [0; 1; 2; 3; 4; 5; 6; 7; 8; 9; 10; 11] new_object in
  (none_seen (range_objects_by_set W [] (sstr "") (Some (fun (l : list (bytes * V)) x => (x :: l, true))) []) &&
   none_seen (range_objects_by_set W [] v None (@nil V)) &&
   match range_objects_by_set W [] v (Some (fun (last : Z) x =>
     if beqb (fst x) (format_int (last + 1)) && is_ Z.eqb (api_int64 E (snd x)) (last + 1)
     then (last + 1, last + 3 <? 12) else (-5, false))) (-1) with
   | Ok last => last =? 10 | _ => false end)%bool = true.
Proof. vm_compute. reflexivity. Qed.

(** /repo/sort_test.go:16-50 *)
Example testSortArray :
  (match sort_array W (J "[0,1,2,3,4,5,6,7,8,9]") (Some (fun a b => match api_int E a, api_int E b with Ok x, Ok y => y <? x | _, _ => false end)) with
   | Ok v => text [] v "[9,8,7,6,5,4,3,2,1,0]" | _ => false end &&
   match sort_array W (sint 1) (Some (fun _ _ => false)) with Ok _ => true | _ => false end &&
   match sort_array W new_array None with Ok _ => true | _ => false end)%bool = true.
Proof. vm_compute. reflexivity. Qed.

(** /repo/beta/contain_test.go:9-64 *)
Definition has (v : string) (p : list param) (s : string) (b : bool) : bool := is_ Bool.eqb (contains E W (J v) (J s) p) b.
Example testContains :
  (has "[1,2,3,4]" [] "[2,3]" true && has "[1,2,3,4]" [] "[1,3]" false &&
   has "{""num"":1234,""str"":""Hello""}" [] "{""num"":1234.00}" true &&
   has "{""num"":1234,""str"":""Hello""}" [] "{""num"":1234,""str"":""hello""}" false &&
   has "{}" [] "{}" true && has "{""obj"":{}}" [] "{""Obj"":{}}" false && has "{""a"":2}" [] "{""a"":3}" false &&
   has "{""a"":2.00000000000}" [] "{""a"":2.000000000000000000000001}" false && has "{""a"":1}" [] "{""a"":2, ""obj"":null}" false &&
   has "{""a"":[1.false,2.0,false,3.0]}" [] "{""a"":[true,2,3]}" false && has "{""a"":[2,2,3]}" [] "{""a"":[2,2,3]}" true &&
   has "{""a"":[2,2,3]}" [] "{""a"":[2,3]}" true &&
   has "{""a"":[2,3], ""obj"":{""a"":{""b"":23}}}" [] "{""obj"":{""a"":{""b"":23}}}" true)%bool = true.
Proof. vm_compute. reflexivity. Qed.
Example testContains_path :
  (has "{""a"":[2,2,3]}" [k "a"; i 2] "3" true && has "{""a"":[2,2,3]}" [k "a"] "[2,3]" true &&
   has "{""a"":[2,2,3]}" [k "a"] "2" false &&
   has "{""a"":[{}, {""b"":22,""c"":222}, 23, ""hello""]}" [k "a"; i 1; k "b"] "22" true &&
   has "{""a"":[{}, {""b"":22,""c"":222}, 23, ""hello""]}" [k "a"; i 4] "22" false &&
   has "{""a"":[{}, {""b"":22,""c"":222}, 23, ""hello""]}" [k "a"; i 1] "{""c"":222}" true)%bool = true.
Proof. vm_compute. reflexivity. Qed.
