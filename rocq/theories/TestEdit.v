(** Tests of the repository on reading and editing documents, as scripts: the
    name of an example is that of the test function, the comment says where it
    stands.  Calls whose effect depends on formatting floats use the table in
    TestKit. *)
From Verif Require Import Base Utf8 Float64 Value Scan Opt Marshal Access Path Edit Unmarshal Compare Iter
  Base64 GoValue Import TestKit.

(** /repo/set_test.go:18-28 *)
Example testJsonvalue_Set : script new_object [
  Good (set (sstr "Hello, world!") [k "data"; k "message"; i 0; k "hello"]);
  reads "{""data"":{""message"":[{""hello"":""Hello, world!""}]}}"].
Proof. vm_compute. reflexivity. Qed.

(** /repo/set_test.go:30-90 *)
Example testSetInteger : script new_object [
  Good (set (sint 123456) [k "data"; k "integer"]);
  Check (fun v => is_ Z.eqb (api_int E (got [k "data"; k "integer"] v)) 123456);
  reads "{""data"":{""integer"":123456}}"].
Proof. vm_compute. reflexivity. Qed.
Example testSetInteger_uint : script new_object [
  Good (set (suint 123456) [k "data"; k "integer"]);
  reads "{""data"":{""integer"":123456}}"].
Proof. vm_compute. reflexivity. Qed.

(** /repo/set_test.go:92-169 *)
Example testSetMisc : script new_object [
  Good (set new_object [k "data"]);
  Good (set (new_bool true) [k "data"; k "true"]);
  Check (fun v => is_ok Bool.eqb (g_bool false [k "data"; k "true"] v) true);
  Good (set (new_bool false) [k "data"; k "false"]);
  Check (fun v => is_ok Bool.eqb (g_bool false [k "data"; k "false"] v) false);
  Good (set new_object [k "data"; k "object"]);
  Good (set (sstr "hello") [k "data"; k "object"; k "message"]);
  Check (fun v => is_ Bool.eqb (api_is_object (got [k "data"; k "object"] v)) true);
  Check (fun v => is_ Nat.eqb (api_len (got [k "data"; k "object"] v)) 1%nat);
  Good (set new_array [k "data"; k "array"]);
  Good (back new_null [k "data"; k "array"]);
  Check (fun v => is_ Bool.eqb (api_is_array (got [k "data"; k "array"] v)) true);
  Check (fun v => is_ Nat.eqb (api_len (got [k "data"; k "array"] v)) 1%nat);
  Good (set (sstr "1234567890") [k "string"]);
  Good (fun v => done (set_bytes E v [18; 52; 86; 120; 144] (k "bytes") []));
  Check (fun v => is_ok beqb (g_bytes false [k "bytes"] v) [18; 52; 86; 120; 144]);
  Check (fun v => is_ beqb (api_bytes (got [k "string"] v)) []);
  Check (fun v => is_ beqb (api_bytes (got [k "data"] v)) []);
  Check (fun v => is_ beqb (api_bytes (got [k "bytes"] v)) [18; 52; 86; 120; 144]);
  Good (set_any GInvalid [k "data"; k "nil"]);
  Check (fun v => is_ok any (g_null false [k "data"; k "nil"] v) tt)].
Proof. vm_compute. reflexivity. Qed.
(** /repo/set_test.go:158-164 *)
Example testSetMisc_array : script new_array [
  Good (front new_object []);
  Good (set (sstr "hello") [i 0]);
  Check (fun v => is_ok beqb (g_str false [i 0] v) (bs "hello"))].
Proof. vm_compute. reflexivity. Qed.
(** /repo/set_test.go:171-178 *)
Example testSetMisc_any : script new_object [
  Bad (set_any GOther [k "channel"]);
  Good (set_any (GSlice (Some [GInt 1; GStr (bs "2"); GFloat64 (fl false 325 (-2)); GInt (-4); GBool false; GInvalid])) [k "arr"]);
  Check (fun v => typ (got [k "arr"] v) TArray);
  reads "{""arr"":[1,""2"",3.25,-4,false,null]}"].
Proof. vm_compute. reflexivity. Qed.
(** /repo/set_test.go:180-194 *)
Example testSetMisc_complex : script new_array [
  Good (set new_array [i 0; i 0; i 0]);
  Good (set new_null [i 0; i 0; i 1]);
  reads "[[[[],null]]]";
  Good (set (new_bool true) [i 0; i 0; i (-1)]);
  reads "[[[[],true]]]";
  Good (fun v => done (at_set E v (i 0) [i 0; i (-1)] (arg_v (new_bool false))));
  reads "[[[[],false]]]"].
Proof. vm_compute. reflexivity. Qed.

(** /repo/set_test.go:197-293 *)
Example testSetError_quote : rejects """" = true.
Proof. vm_compute. reflexivity. Qed.
Example testSetError_param : script new_object [
  Bad (set (sstr "hello") [POther]);
  Bad (set (sstr "hello") [POther; k "message"]);
  Bad (set (sstr "hello") [k "message"; POther]);
  Bad (set (sstr "hello") [k "message"; k "message"; POther])].
Proof. vm_compute. reflexivity. Qed.
Example testSetError_child : script new_object [
  Bad (set VNotExist [k "uninitialized"]);
  Good (set (sstr "hello") [k "object"; k "message"]);
  Bad (set new_null [k "object"; k "message"; k "null"])].
Proof. vm_compute. reflexivity. Qed.
Example testSetError_self : script VNotExist [Bad (set new_object [k "uninitialized"])].
Proof. vm_compute. reflexivity. Qed.
Example testSetError_string : script (sstr "string") [
  Bad (set (sstr "hello") [k "message"]);
  Bad (set (sstr "hello") [k "object"; k "message"])].
Proof. vm_compute. reflexivity. Qed.
Example testSetError_array : script new_array [
  Bad (set new_null [k "0"]); Bad (set new_null [i 1])].
Proof. vm_compute. reflexivity. Qed.
Example testSetError_nested : script new_array [
  Good (front new_array []); Good (front new_array [i 0]); Good (back new_object [i 0]);
  Bad (set new_null [i 0; POther]);
  Bad (set new_null [i 0; i 0; POther]);
  Bad (set new_null [i 0; POther; i 0])].
Proof. vm_compute. reflexivity. Qed.
Example testSetError_range : script new_array [
  Good (set new_null [i 0]); Good (set new_null [i 1]); reads "[null,null]";
  Bad (set new_null [i 10]); Bad (set new_null [i (-10)])].
Proof. vm_compute. reflexivity. Qed.
Example testSetError_deep : script new_array [
  Bad (set new_null [i 0; i 1]); Bad (set new_null [i 0; POther])].
Proof. vm_compute. reflexivity. Qed.
Example testSetError_deep_object : script new_object [
  Bad (set new_null [k "array"; i 1]); Bad (set new_null [k "array"; POther])].
Proof. vm_compute. reflexivity. Qed.

(** /repo/set_test.go:377-398 *)
Definition pStr := PSlice [k "outer"; k "inner"].
Definition pAny := PSlice [k "outer"; k "inter"; k "array"; i 0].
Example testSetWithSlice : script new_object [
  Good (set (sstr "string") [pStr]);
  reads "{""outer"":{""inner"":""string""}}";
  Good (set (sint 123456) [pAny]);
  reads "{""outer"":{""inner"":""string"",""inter"":{""array"":[123456]}}}";
  Bad (set (sstr "abcdef") [pAny; pStr]);
  reads "{""outer"":{""inner"":""string"",""inter"":{""array"":[123456]}}}"].
Proof. vm_compute. reflexivity. Qed.

(** /repo/get_test.go:17-172 *)
Definition full := J "{""data"":{""message"":[""hello"",""world"",true,null],""author"":""Andrew"",""year"":2019,""YYYY.MM"":2019.12,""negative"":-1234,""num_in_str"":""2020.02"",""negative_in_str"":""-12345"",""invalid_num_in_str"":""2020/02""}}".
Definition data (s : string) := [k "data"; k s].
Example testJsonvalue_Get : script full [
  Check (fun v => is_ok beqb (g_str false (data "author") v) (bs "Andrew"));
  Check (fun v => is_ok Z.eqb (g_int false (data "year") v) 2019);
  Check (fun v => is_ok Z.eqb (g_uint false (data "year") v) 2019);
  Check (fun v => is_ok Z.eqb (g_int64 false (data "year") v) 2019);
  Check (fun v => is_ok Z.eqb (g_uint64 false (data "year") v) 2019);
  Check (fun v => is_ok Z.eqb (g_int32 false (data "negative") v) (-1234));
  Check (fun v => is_ok Z.eqb (g_int32 true (data "negATive") v) (-1234));
  Check (fun v => is_err_with any (g_int32 false (data "negATive") v) 0);
  Check (fun v => is_ok Z.eqb (g_uint32 false (data "year") v) 2019);
  Check (fun v => is_ok SFeqb (g_f64 false (data "YYYY.MM") v) (fl false 201912 (-2)));
  Check (fun v => is_ok any (g_null false [k "data"; k "message"; i (-1)] v) tt);
  Check (fun v => is_ok Bool.eqb (g_bool false [k "data"; k "message"; i 2] v) true);
  Check (fun v => is_ok beqb (g_str false [k "data"; k "message"; i 0] v) (bs "hello"));
  Check (fun v => is_ok beqb (g_str false [k "data"; k "message"; i (-3)] v) (bs "world"));
  Check (fun v => is_ Nat.eqb (api_len v) 1%nat);
  Check (fun v => is_ Nat.eqb (api_len (got (data "message") v)) 4%nat);
  Check (fun v => is_ Nat.eqb (api_len (got (data "author") v)) 0%nat);
  Check (fun v => match g_obj false [k "data"] v with Ok (c, None) => typ c TObject | _ => false end);
  Check (fun v => match g_obj true [k "Data"] v with Ok (c, None) => typ c TObject | _ => false end);
  Check (fun v => typ (got_caseless [k "Data"] v) TObject);
  Check (fun v => match g_obj false [k "not_exist"] v with Ok (c, Some _) => str c "" | _ => false end);
  Check (fun v => is_ Z.eqb (api_int E (got (data "num_in_str") v)) 2020);
  Check (fun v => is_ SFeqb (api_float64 E (got (data "num_in_str") v)) (fl false 202002 (-2)));
  Check (fun v => str (got (data "num_in_str") v) "2020.02");
  Check (fun v => is_ Z.eqb (api_int E (got (data "negative_in_str") v)) (-12345));
  Check (fun v => typ (got (data "negative_in_str") v) TString);
  Check (fun v => str (got (data "negative_in_str") v) "-12345");
  Check (fun v => typ (got (data "invalid_num_in_str") v) TString);
  Check (fun v => is_ SFeqb (api_float64 E (got (data "invalid_num_in_str") v)) (S754_zero false))].
Proof. vm_compute. reflexivity. Qed.

(** /repo/get_test.go:174-316 *)
Definition misc := J "{""array"":[0,1,2,3],""string"":""hello, world"",""number"":1234.12345}".
Definition fails_all (p : list param) (v : V) : bool :=
  is_err_with Z.eqb (g_int false p v) 0 && is_err_with Z.eqb (g_uint false p v) 0 &&
  is_err_with Z.eqb (g_int64 false p v) 0 && is_err_with Z.eqb (g_uint64 false p v) 0 &&
  is_err_with Z.eqb (g_int32 false p v) 0 && is_err_with Z.eqb (g_uint32 false p v) 0 &&
  is_err_with SFeqb (g_f64 false p v) (S754_zero false) && is_err_with SFeqb (g_f32 false p v) (S754_zero false) &&
  match g_obj false p v with Ok (VNotExist, Some _) => true | _ => false end &&
  match g_arr false p v with Ok (VNotExist, Some _) => true | _ => false end &&
  is_err_with Bool.eqb (g_bool false p v) false && is_err_with any (g_null false p v) tt.
Example testMiscError : script misc [
  Check (fun v => is_err_with any (g_int false [k "array"; POther] v) 0);
  Check (fun v => is_err_with any (g_str false [POther] v) []);
  Check (finds [k "string"]);
  Check (fun v => negb (finds_caseless [k "NOT_EXIST"] (got [k "string"] v)));
  Check (fun v => negb (finds [k "array"; i 100] v));
  Check (fun v => typ (got [k "array"; i 100] v) TNotExist);
  Check (fun v => negb (finds [k "string"; k "hello"] v));
  Check (fun v => is_err_with beqb (g_str false [k "number"] v) []);
  Check (fun v => is_err_with beqb (g_str false [k "not exist"] v) []);
  Check (fails_all [k "string"]);
  Check (fails_all [k "not exist"]);
  Check (fun v => is_err_with beqb (g_bytes false [k "string"] v) []);
  Check (fun v => is_err_with beqb (g_bytes false [k "array"] v) [])].
Proof. vm_compute. reflexivity. Qed.

(** /repo/get_test.go:318-432 *)
Definition upper := J "{""data"":{""STRING"":""hello, world"",""INTEGER"":12345,""TRUE"":true,""FALSE"":false,""NULL"":null,""FLOAT"":1234.5678,""OBJECT"":{},""ARRAY"":[]}}".
Definition only_caseless {A} (g : bool -> list param -> V -> res (A * option err)) (s : string) : step :=
  Check (fun v => match err_of (g false (data s) v), g true (data s) v with
                  | Some _, Ok (_, None) => true | _, _ => false end).
Example testCaselessGet : script upper [
  Good (fun v => done (set_bytes E v [1; 2; 3; 4] (k "data") [k "BYTES"]));
  Check (fun v => typ v TObject);
  Check (fun v => negb (finds (data "object") v));
  Check (finds_caseless (data "object"));
  Check (fun v => negb (finds_caseless (data "obj") v));
  only_caseless g_obj "object"; only_caseless g_arr "array"; only_caseless g_bytes "bytes";
  only_caseless g_str "string"; only_caseless g_int "integer"; only_caseless g_uint "integer";
  only_caseless g_int64 "integer"; only_caseless g_uint64 "integer"; only_caseless g_int32 "integer";
  only_caseless g_uint32 "integer"; only_caseless g_f64 "float"; only_caseless g_f32 "float";
  only_caseless g_bool "true"; only_caseless g_null "null";
  Good (del_caseless (data "array"));
  Check (fun v => negb (finds_caseless (data "array") v));
  Check (fun v => typ (got_caseless (data "array") v) TNotExist)].
Proof. vm_compute. reflexivity. Qed.

(** /repo/get_test.go:434-459 *)
Example testNotExistGet : script (J "blah-blah") [
  Check (fun v => typ v TNotExist);
  Check (fun v => negb (finds [k "string"] v));
  Check (fun v => match g_arr false [k "some_array"; i 1; i 2; i 3] v with Ok (VNotExist, Some _) => true | _ => false end)].
Proof. vm_compute. reflexivity. Qed.

(** /repo/get_test.go:461-600 *)
Definition mismatch {A} (eqb : A -> A -> bool) (g : list param -> V -> res (A * option err)) (s : string) (a : A) : step :=
  Check (fun v => match g [k s] v with Ok (x, Some ErrTypeNotMatch) => eqb x a | _ => false end).
Definition unreadable {A} (eqb : A -> A -> bool) (g : list param -> V -> res (A * option err)) (s : string) (a : A) : step :=
  Check (fun v => match g [k s] v with Ok (x, Some ErrParseNumberFromString) => eqb x a | _ => false end).
Example testGetNumFromString_invalid : script (J "{""num"":""abcde"",""bool"":true}") [
  unreadable Z.eqb (g_int false) "num" 0;
  unreadable SFeqb (g_f64 false) "num" (S754_zero false);
  mismatch SFeqb (g_f64 false) "bool" (S754_zero false)].
Proof. vm_compute. reflexivity. Qed.
Example testGetNumFromString_int : script (J "{""num"":""-123.25"",""negative"":-9223372036854775808}") [
  mismatch Z.eqb (g_int false) "num" (-123);
  mismatch SFeqb (g_f64 false) "num" (fl true 12325 (-2));
  Check (fun v => is_ok Z.eqb (g_int false [k "negative"] v) (-9223372036854775808));
  mismatch Z.eqb (g_int32 false) "num" (-123);
  mismatch SFeqb (g_f32 false) "num" (fl true 12325 (-2));
  mismatch Z.eqb (g_int64 false) "num" (-123)].
Proof. vm_compute. reflexivity. Qed.
Example testGetNumFromString_uint : script (J "{""num"":""123.25""}") [
  mismatch Z.eqb (g_int false) "num" 123;
  mismatch SFeqb (g_f64 false) "num" (fl false 12325 (-2));
  mismatch SFeqb (g_f32 false) "num" (fl false 12325 (-2));
  mismatch Z.eqb (g_int64 false) "num" 123].
Proof. vm_compute. reflexivity. Qed.
Example testGetNumFromString_bool :
  script (J "{""str"":""true""}") [mismatch Bool.eqb (g_bool false) "str" true] /\
  script (J "{""str"":""""}") [mismatch Bool.eqb (g_bool false) "str" false] /\
  script (J "{""num"":""0""}") [mismatch Bool.eqb (g_bool false) "num" false] /\
  script (J "{""num"":1}") [mismatch Bool.eqb (g_bool false) "num" true] /\
  script (J "{""num"":0}") [mismatch Bool.eqb (g_bool false) "num" false] /\
  script (J "{""num"":null}") [mismatch Bool.eqb (g_bool false) "num" false].
Proof. repeat split; vm_compute; reflexivity. Qed.

(** /repo/get_test.go:602-630 *)
Example testGetWithSlice : script (J "{""outer"":{""inter"":{""inner"":[""value""],""int"":1234}}}") [
  Check (fun v => is_ok beqb (g_str false [PSlice [k "outer"; k "inter"; k "inner"; i 0]] v) (bs "value"));
  Check (fun v => is_ok Z.eqb (g_int false [PSlice [k "outer"; k "inter"; k "int"]] v) 1234);
  Check (fun v => is_err_with any (g_int false [PSlice [k "outer"; k "inter"; k "int"]; i 123456] v) 0)].
Proof. vm_compute. reflexivity. Qed.

(** /repo/insert_append_delete_test.go:23-96 *)
Example testInsertAppend : script new_array [
  Good (front (sstr "world") []); reads "[""world""]";
  Good (back (sf false 1234123456789 (-9)) []); reads "[""world"",1234.123456789]";
  Good (after (new_bool true) [i (-1)]); reads "[""world"",1234.123456789,true]";
  Good (back new_null []); reads "[""world"",1234.123456789,true,null]";
  Good (before (sint 123456) [i 0]); reads "[123456,""world"",1234.123456789,true,null]";
  Good (after (sstr "hello") [i 0]); reads "[123456,""hello"",""world"",1234.123456789,true,null]";
  Good (after new_array [i (-2)]); reads "[123456,""hello"",""world"",1234.123456789,true,[],null]";
  Good (back (sstr "12345") [i (-2)]); reads "[123456,""hello"",""world"",1234.123456789,true,[""12345""],null]";
  Good (back_any GInvalid []); reads "[123456,""hello"",""world"",1234.123456789,true,[""12345""],null,null]";
  Good (back (new_bytes (bs "1")) []);
  reads "[123456,""hello"",""world"",1234.123456789,true,[""12345""],null,null,""MQ==""]";
  Good (back_any (GInt 99999999) []);
  reads "[123456,""hello"",""world"",1234.123456789,true,[""12345""],null,null,""MQ=="",99999999]"].
Proof. vm_compute. reflexivity. Qed.
Example testInsertAppend_back : script (J "[123456,""hello"",""world"",1234.123456789,true,[""12345""],null,null,""MQ=="",99999999]") [
  reads "[123456,""hello"",""world"",1234.123456789,true,[""12345""],null,null,""MQ=="",99999999]"].
Proof. vm_compute. reflexivity. Qed.

(** /repo/insert_append_delete_test.go:161-314 *)
Definition two := match new_ E W opt0 (GSlice (Some [GInt 1; GInt 2])) with Ok v => v | _ => VUnknown end.
Example testMustInsertAppend :
  script two [Good (before (sint 10) [i 1]); reads "[1,10,2]"] /\
  script two [Good (before (sint (-1)) [i 1]); reads "[1,-1,2]"] /\
  script two [Good (before (suint 10) [i 1]); reads "[1,10,2]"] /\
  script two [Good (before (sf true 15 (-1)) [i 1]); reads "[1,-1.5,2]"] /\
  script two [Good (before new_null [i 1]); reads "[1,null,2]"] /\
  script two [Good (after new_object [i 1]); reads "[1,2,{}]"] /\
  script two [Good (front (new_bool true) []); reads "[true,1,2]"] /\
  script two [Good (back (sint (-100)) []); reads "[1,2,-100]"] /\
  script two [Good (front (sint (-100)) []); reads "[-100,1,2]"] /\
  script two [Good (front (suint 100) []); reads "[100,1,2]"] /\
  script two [Good (front (sf false 125 (-2)) []); reads "[1.25,1,2]"] /\
  script two [Good (front (sf true 125 (-2)) []); reads "[-1.25,1,2]"].
Proof. repeat split; vm_compute; reflexivity. Qed.

(** /repo/insert_append_delete_test.go:316-374 *)
Definition victim := J "{""array"":[1,2,3,4,5,6],""string"":""string to be deleted"",""object"":{""number"":12345},""OBJECT"":{}}".
Definition deleted_err (e : err) (p : list param) : step :=
  Check (fun v => match p with x :: r => match snd (delete_at E W false v x r) with Err ErrNotFound => true | _ => false end | [] => false end).
Example testDelete : script victim [
  Bad (del [k "oBJECT"]);
  Good (del [k "object"; k "number"]);
  Check (fun v => text [] (got [k "object"] v) "{}");
  deleted_err ErrNotFound [k "object"; k "number"];
  Good (del [k "object"]);
  Check (finds_caseless [k "object"]);
  Bad (del [k "object"]);
  Good (del_caseless [k "object"]);
  Bad (del_caseless [k "object"]);
  Bad (del_caseless [k "NOT_EXIST"]);
  Check (fun v => negb (finds [k "object"] v));
  Good (del [k "string"]);
  reads "{""array"":[1,2,3,4,5,6]}";
  Good (del [k "array"; i 1]);
  reads "{""array"":[1,3,4,5,6]}"].
Proof. vm_compute. reflexivity. Qed.

(** /repo/insert_append_delete_test.go:415-435, without the two floats *)
Example testMiscAppend : script new_array [
  Good (front (new_bool true) []); Good (back (sint (-1)) []); Good (back (suint 2) []);
  Good (back new_object []); Good (back new_array []);
  Good (back new_null [i (-1)]); Good (front new_array [i (-1)]); Good (front (new_bool false) [i (-1); i 0]);
  reads "[true,-1,2,{},[[false],null]]"].
Proof. vm_compute. reflexivity. Qed.

(** /repo/insert_append_delete_test.go:437-445 *)
Example testAppendAndAutoGeneratePath : script new_object [
  Good (back (sint 1) [k "arr"]); reads "{""arr"":[1]}"].
Proof. vm_compute. reflexivity. Qed.

(** /repo/insert_append_delete_test.go:447-573, without the two floats *)
Example testMiscInsert : script new_array [
  Bad (before new_null [i 0]); Bad (after new_null [i 0]);
  Good (front new_null []);
  Bad (before new_null [i 10000]); Bad (after new_null [i 10000]);
  Bad (before new_null [i (-10000)]); Bad (after new_null [i (-10000)]);
  Bad (before new_null [i (-2)]);
  Good (after (suint 1) [i (-1)]); Good (after (sint (-2)) [i (-1)]);
  Good (after (new_bool true) [i (-1)]); Good (after (new_bool false) [i (-1)]);
  Good (after_any GInvalid [i (-1)]); Good (after new_null [i (-1)]);
  Good (after new_object [i (-1)]); Good (after new_array [i (-1)]);
  Good (front new_array [i (-1)]); Good (front (sint (-11)) [i (-1); i 0]);
  Good (after (suint 22) [i (-1); i 0; i 0]); Good (before new_null [i (-1); i 0; i 0]);
  Good (before (sint (-2)) [i (-1)]); Good (before_any (GStr (bs "insert test")) [i (-1)]);
  reads "[null,1,-2,true,false,null,null,{},-2,""insert test"",[[null,-11,22]]]"].
Proof. vm_compute. reflexivity. Qed.

(** /repo/insert_append_delete_test.go:575-633 *)
Example testMiscInsertError :
  script VNotExist [Bad (after_any GInvalid [i 0]); Bad (before_any GInvalid [i 0])] /\
  script new_null [Bad (after_any GInvalid [i 0]); Bad (before_any GInvalid [i 0])] /\
  script new_array [Bad (after new_null [POther]); Bad (before new_null [POther])] /\
  script new_array [Good (back new_null []); Good (back new_null []);
                    Bad (after new_null [i 100]); Bad (before new_null [i (-100)])] /\
  script (J "{""object"":{""array"":[1,2,3,4]}}") [
    Bad (after new_null [k "object"; k "not exist"]); Bad (before new_null [k "object"; k "not exist"])] /\
  script (J "[0]") [Bad (after_any GOther [i 0]); Bad (before_any GOther [i 0])].
Proof. repeat split; vm_compute; reflexivity. Qed.

(** /repo/insert_append_delete_test.go:635-707 *)
Definition nested := J "{""object"":{""object"":{""array"":[[]],""object"":{}}}}".
Example testMiscAppendError :
  script VNotExist [Bad (front (sstr "blah-blah") []); Bad (back (sstr "blah-blah") [])] /\
  script (sstr "blah-blah") [Bad (front (sstr "blah-blah") [])] /\
  script nested [
    Good (front new_null [k "object"; k "arrayNotExist"; k "arrayNotExistForTheBeginning"]);
    Good (back new_null [k "object"; k "arrayNotExist"; k "arrayNotExistForTheEnd"]);
    Bad (front new_null [k "object"; k "object"]); Bad (back new_null [k "object"; k "object"]);
    Check (fun v => is_ok any (g_null false [k "object"; k "arrayNotExist"; k "arrayNotExistForTheBeginning"; i 0] v) tt);
    Check (fun v => is_ok any (g_null false [k "object"; k "arrayNotExist"; k "arrayNotExistForTheEnd"; i 0] v) tt)] /\
  script nested [
    Bad (front new_null [k "object"; k "object"]);
    Bad (after new_null [k "object"; k "object"; k "object"; i 0])] /\
  script (got [k "object"; k "object"; k "object"] nested) [Bad (back new_null [])] /\
  script nested [Bad (before new_null [k "object"; k "object"; k "array"; POther])].
Proof. repeat split; vm_compute; reflexivity. Qed.

(** /repo/insert_append_delete_test.go:709-746 *)
Example testMiscDeleteError : script
  (J "{""Hello"":""world"",""object"":{""hello"":""world"",""object"":{""int"":123456}},""array"":[123456]}") [
  Bad (del [POther]); Bad (del [k "object"; POther]); Bad (del [k "array"; k "2"]); Bad (del [PNil]);
  Bad (del [k "earth"]); Bad (del [k "array"; i 100]);
  Bad (del [k "object"; k "object"; k "int"; k "number"]); Bad (del [k "object"; k "bool"; k "string"])].
Proof. vm_compute. reflexivity. Qed.

(** /repo/insert_append_delete_test.go:748-773 *)
Definition one := match new_ E W opt0 (GSlice (Some [GInt 1])) with Ok v => v | _ => VUnknown end.
Example testInsertWithSlice : script one [
  Check (fun v => typ v TArray);
  Bad (before (sint 1234) [PSlice [i 0]; PSlice [i 0]]); Bad (after (sint 1234) [PSlice [i 0]; PSlice [i 0]]);
  reads "[1]";
  Good (before (sint 1234) [PSlice [i 0]]); reads "[1234,1]";
  Good (after (sint 5678) [PSlice [i 0]]); reads "[1234,5678,1]"].
Proof. vm_compute. reflexivity. Qed.

(** /repo/insert_append_delete_test.go:775-801 *)
Definition pInner := PSlice [k "outer"; k "inter"; k "inner"].
Example testAppendWithSlice : script new_object [
  Good (set_any (GSlice (Some [])) [k "outer"; k "inter"; k "inner"]);
  reads "{""outer"":{""inter"":{""inner"":[]}}}";
  Bad (back (sint 1234) [pInner; i 1234]); Bad (front (sint 1234) [pInner; i 1234]);
  reads "{""outer"":{""inter"":{""inner"":[]}}}";
  Good (back (sint 1234) [pInner]); reads "{""outer"":{""inter"":{""inner"":[1234]}}}";
  Good (front (sstr "5678") [pInner]); reads "{""outer"":{""inter"":{""inner"":[""5678"",1234]}}}"].
Proof. vm_compute. reflexivity. Qed.

(** /repo/insert_append_delete_test.go:803-860 *)
Example testDeleteWithSlice : script new_object [
  Good (set_any (GSlice (Some [GInt 1; GInt 2; GInt 3; GInt 4; GInt 5; GInt 6])) [k "outer"; k "inner"]);
  Good (del [k "outer"; k "inner"; i 5]); reads "{""outer"":{""inner"":[1,2,3,4,5]}}";
  Bad (del [PSlice [k "outer"; k "inner"; i 3]; i 0]); reads "{""outer"":{""inner"":[1,2,3,4,5]}}";
  Good (del [PSlice [k "outer"; k "inner"; i 3]]); reads "{""outer"":{""inner"":[1,2,3,5]}}";
  Good (del_caseless [PSlice [k "OUTER"; k "inner"]]); reads "{""outer"":{}}";
  Bad (del [PSlice []])].
Proof. vm_compute. reflexivity. Qed.
Example testDeleteWithSlice_int : script (J "[[1,2,3],[11,22,33],[111,222,333]]") [
  Check (fun v => is_ Nat.eqb (api_len v) 3%nat);
  Good (del [PSlice [i 0; i 2]]); reads "[[1,2],[11,22,33],[111,222,333]]";
  Good (del [PSlice [i 1; i 1]]); reads "[[1,2],[11,33],[111,222,333]]";
  Good (del [PSlice [i 2]]); reads "[[1,2],[11,33]]"].
Proof. vm_compute. reflexivity. Qed.

(** /repo/example_jsonvalue_test.go:54-212 *)
Example ExampleV_Append : script (J "{""obj"":{""arr"":[1,2,3,4,5]}}") [
  Good (front (sint 0) [k "obj"; k "arr"]); reads "{""obj"":{""arr"":[0,1,2,3,4,5]}}";
  Good (back (sint 0) [k "obj"; k "arr"]); reads "{""obj"":{""arr"":[0,1,2,3,4,5,0]}}"].
Proof. vm_compute. reflexivity. Qed.
Example ExampleV_Insert : script (J "{""obj"":{""arr"":[""hello"",""world""]}}") [
  Good (after (sstr "my") [k "obj"; k "arr"; i 0]); reads "{""obj"":{""arr"":[""hello"",""my"",""world""]}}";
  Good (before (sstr "beautiful") [k "obj"; k "arr"; i 2]);
  reads "{""obj"":{""arr"":[""hello"",""my"",""beautiful"",""world""]}}"].
Proof. vm_compute. reflexivity. Qed.
Example ExampleV_Set : script new_object [
  Good (set new_object [k "obj"]); Good (set (sstr "Hello, world!") [k "obj"; k "message"]);
  reads "{""obj"":{""message"":""Hello, world!""}}"].
Proof. vm_compute. reflexivity. Qed.
Example ExampleV_Set_another2 : script new_object [
  Good (set (sstr "Hello, world!") [k "arr"; i 0]); reads "{""arr"":[""Hello, world!""]}"].
Proof. vm_compute. reflexivity. Qed.
Example ExampleV_Set_another3 : script new_object ([
  Check (fun v => match snd (set_at E v (arg_v (sstr "Hello, world")) (k "arr") [i 1]) with Err ErrOutOfRange => true | _ => false end);
  Bad (set (sstr "Hello, world") [k "arr"; i 1]); reads "{}"] ++
  map (fun n => Good (set (sint (10 * n + 10)) [k "arr"; i n])) [0; 1; 2; 3; 4; 5; 6; 7; 8; 9] ++ [
  reads "{""arr"":[10,20,30,40,50,60,70,80,90,100]}"]).
Proof. vm_compute. reflexivity. Qed.
Example ExampleV_Set_another4 : script new_object (
  map (fun n => Good (set (sint n) [k "arr"; i n])) [0; 1; 2; 3; 4; 5; 6; 7; 8; 9] ++ [
  reads "{""arr"":[0,1,2,3,4,5,6,7,8,9]}";
  Good (set_any (GFloat64 (fl false 12312345 (-5))) [k "arr"; i 3]);
  reads "{""arr"":[0,1,2,123.12345,4,5,6,7,8,9]}"]).
Proof. vm_compute. reflexivity. Qed.
Example ExampleV_Set_another5 : script new_object [
  Good (set_any (GStruct [(GField (bs "Text") false true false (bs "text"), GStr (bs "Hello, jsonvalue!"))]) [k "child"]);
  reads "{""child"":{""text"":""Hello, jsonvalue!""}}"].
Proof. vm_compute. reflexivity. Qed.
