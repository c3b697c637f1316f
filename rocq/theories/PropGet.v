(** Properties of the getters, predicates and String (C08, C27, C34, C41-C43). *)
From Verif Require Import Base Float64 Value Scan Unmarshal Opt Marshal Defaults Access Path Edit SpecJson SpecValue SpecText SpecLax SpecPath SpecGet
  GetClaims TypeProof ExampleWorld.

(** C08: the 64-bit integers. *)
Theorem C08_int64 : forall (E : Env) (W : World) (o : opt) i, - two63 <= i < two63 ->
  api_int64 E (new_int64 i) = Ok i /\
  exists t v, decimal t i /\ marshal_opt E W o (new_int64 i) = Ok t /\ unmarshal E t = Ok (v, None) /\
    api_int64 E v = Ok i /\ api_is_integer v = Ok true /\ api_is_negative v = Ok (i <? 0) /\
    api_is_float v = Ok false /\ marshal_opt E W o v = Ok t.
Proof. exact int64_round_trip. Qed.
Print Assumptions C08_int64.

Theorem C08_uint64 : forall (E : Env) (W : World) (o : opt) u, 0 <= u < two64 ->
  api_uint64 E (new_uint64 u) = Ok u /\
  exists t v, decimal t u /\ marshal_opt E W o (new_uint64 u) = Ok t /\ unmarshal E t = Ok (v, None) /\
    api_uint64 E v = Ok u /\ api_is_integer v = Ok true /\ api_is_negative v = Ok false /\ api_is_float v = Ok false /\
    greater_than_int64_max v = Ok (two63 - 1 <? u) /\ marshal_opt E W o v = Ok t.
Proof. exact uint64_round_trip. Qed.
Print Assumptions C08_uint64.

Example C08_instance :
  marshal_opt env0 world1 opt0 (new_int64 (- two63)) = Ok (bs "-9223372036854775808") /\
  marshal_opt env0 world1 opt0 (new_uint64 (two64 - 1)) = Ok (bs "18446744073709551615") /\
  (exists v, unmarshal env0 (bs "-9223372036854775808") = Ok (v, None) /\ api_int64 env0 v = Ok (- two63)) /\
  (exists v, unmarshal env0 (bs "18446744073709551615") = Ok (v, None) /\ api_uint64 env0 v = Ok (two64 - 1)).
Proof.
  split; [vm_compute; reflexivity|]. split; [vm_compute; reflexivity|].
  split; eexists; (split; [vm_compute; reflexivity|reflexivity]).
Qed.

(** C27 is false for strings of white space: the getters of numbers panic. *)
Theorem C27_refuted : exists v p, no_nil v /\ forall E W cl,
  snd (get E W cl v p []) = Ok (VStr [32]) /\
  get_int E W cl v p [] = Panic /\ get_float64 E W cl v p [] = Panic /\ api_int E (VStr [32]) = Panic.
Proof. exact blank_panics. Qed.
Print Assumptions C27_refuted.

(** They panic on every such string. *)
Theorem C27_blank_panics : forall (E : Env) (W : World) cl v p o s, snd (get E W cl v p o) = Ok (VStr s) -> spaces s ->
  get_int E W cl v p o = Panic /\ get_uint64 E W cl v p o = Panic /\ get_float64 E W cl v p o = Panic.
Proof. exact blank_always_panics. Qed.
Print Assumptions C27_blank_panics.

(** C27 for all other strings ([number_contract]) and all other values.  The
    conversion to float32 is assumed to keep 0. *)
Theorem C27_getters_partial : forall (E : Env) (W : World) cl v p o, no_nil v ->
  let r := snd (get E W cl v p o) in
  number_contract 0 n_i64 r (get_int E W cl v p o) /\
  number_contract 0 n_u64 r (get_uint E W cl v p o) /\
  number_contract 0 n_i64 r (get_int64 E W cl v p o) /\
  number_contract 0 n_u64 r (get_uint64 E W cl v p o) /\
  number_contract 0 (fun n => wrap_i32 (n_i64 n)) r (get_int32 E W cl v p o) /\
  number_contract 0 (fun n => wrap_u32 (n_u64 n)) r (get_uint32 E W cl v p o) /\
  number_contract (S754_zero false) n_f64 r (get_float64 E W cl v p o) /\
  (to_f32 E (S754_zero false) = S754_zero false ->
   number_contract (S754_zero false) (fun n => to_f32 E (n_f64 n)) r (get_float32 E W cl v p o)) /\
  bool_contract r (get_bool E W cl v p o) /\
  type_contract [] sel_string r (get_string E W cl v p o) /\
  type_contract tt sel_null r (get_null E W cl v p o) /\
  type_contract VNotExist sel_object r (get_object E W cl v p o) /\
  type_contract VNotExist sel_array r (get_array E W cl v p o).
Proof. exact getters_contract. Qed.
Print Assumptions C27_getters_partial.

(** The accessors Int, Uint, ... of a value. *)
Theorem C27_accessors_partial : forall (E : Env) v, v <> VNil ->
  number_of 0 n_i64 v (api_int E v) /\ number_of 0 n_u64 v (api_uint E v) /\
  number_of 0 n_i64 v (api_int64 E v) /\ number_of 0 n_u64 v (api_uint64 E v) /\
  number_of 0 (fun n => wrap_i32 (n_i64 n)) v (api_int32 E v) /\
  number_of 0 (fun n => wrap_u32 (n_u64 n)) v (api_uint32 E v) /\
  number_of (S754_zero false) n_f64 v (api_float64 E v) /\
  (to_f32 E (S754_zero false) = S754_zero false ->
   number_of (S754_zero false) (fun n => to_f32 E (n_f64 n)) v (api_float32 E v)).
Proof. exact accessors_contract. Qed.
Print Assumptions C27_accessors_partial.

Example C27_instance : forall E W,
  let v := VArr [VStr (bs "  -12 "); VStr (bs "12x"); VBool true; new_int64 7] in
  get_int E W false v (PInt 0) [] = Ok (-12, Some ErrTypeNotMatch) /\
  get_int E W false v (PInt 1) [] = Ok (0, Some ErrParseNumberFromString) /\
  get_int E W false v (PInt 2) [] = Ok (0, Some ErrTypeNotMatch) /\
  get_int E W false v (PInt 3) [] = Ok (7, None) /\
  get_int E W false v (PInt 4) [] = Ok (0, Some ErrOutOfRange) /\
  get_bool E W false v (PInt 2) [] = Ok (true, None) /\
  get_string E W false v (PInt 1) [] = Ok (bs "12x", None) /\
  get_string E W false v (PInt 3) [] = Ok ([], Some ErrTypeNotMatch).
Proof. intros E W. repeat split; vm_compute; reflexivity. Qed.

(** C34 is false: Append drops the error of the conversion and appends a value
    that does not exist. *)
Theorem C34_refuted : exists x e, snd x = Some e /\ forall E W l,
  append_end E W (VArr l) x [] = (VArr (l ++ [VNotExist]), Ok VNotExist) /\
  append_beginning E W (VArr l) x [] = (VArr (VNotExist :: l), Ok VNotExist).
Proof. exact append_hides_error. Qed.
Print Assumptions C34_refuted.

(** Set and Insert report it and leave the document as it was. *)
Theorem C34_set_insert_partial : forall (E : Env) (W : World) v x e p o, snd x = Some e ->
  set_at E v x p o = (v, Err e) /\ insert_before E W v x p o = (v, Err e) /\ insert_after E W v x p o = (v, Err e).
Proof. exact others_report_error. Qed.
Print Assumptions C34_set_insert_partial.

Example C34_instance : forall E W,
  insert_after E W (VArr [VNull]) (VNotExist, Some EOther) (PInt 0) [] = (VArr [VNull], Err EOther) /\
  append_end E W (VArr [VNull]) (VNotExist, Some EOther) [] = (VArr [VNull; VNotExist], Ok VNotExist).
Proof. intros E W. split; reflexivity. Qed.

(** C41: Len counts what Get finds. *)
Theorem C41_len_array : forall (E : Env) (W : World) l, exists n, api_len (VArr l) = Ok n /\
  forall i, (exists c, snd (get E W false (VArr l) (PInt i) []) = Ok c) <-> - Z.of_nat n <= i < Z.of_nat n.
Proof. exact len_array. Qed.
Print Assumptions C41_len_array.

Theorem C41_len_object : forall (E : Env) (W : World) i kvs lo, maps_ok (VObj i kvs lo) ->
  exists n ks, api_len (VObj i kvs lo) = Ok n /\ NoDup ks /\ List.length ks = n /\
  forall k, (exists c, snd (get E W false (VObj i kvs lo) (PStr k) []) = Ok c) <-> In k ks.
Proof. exact len_object. Qed.
Print Assumptions C41_len_object.

Theorem C41_len_other : forall v, (forall l, v <> VArr l) -> (forall i kvs lo, v <> VObj i kvs lo) -> v <> VNil ->
  api_len v = Ok 0%nat.
Proof. exact len_other. Qed.
Print Assumptions C41_len_other.

(** Exactly one type predicate holds, the one of ValueType. *)
Theorem C41_one_type : forall v, json_typed v -> exists t, value_type v = Ok t /\
  let preds := [(TString, api_is_string v); (TNumber, api_is_number v); (TObject, api_is_object v);
                (TArray, api_is_array v); (TBoolean, api_is_boolean v); (TNull, api_is_null v)] in
  In t (map fst preds) /\
  Forall (fun p => (fst p = t -> snd p = Ok true) /\ (fst p <> t -> snd p = Ok false)) preds.
Proof. exact one_type. Qed.
Print Assumptions C41_one_type.

(** ... and that is the type of the JSON value that was parsed. *)
Theorem C41_type_parsed : forall (E : Env) b j, lax_doc b j ->
  exists v, unmarshal E b = Ok (v, None) /\ value_type v = Ok (type_of_json j).
Proof. exact type_parsed. Qed.
Print Assumptions C41_type_parsed.

(** The predicates of numbers are false for other values; for a number exactly
    one of IsFloat and IsInteger and one of IsNegative and IsPositive holds. *)
Theorem C41_number_predicates : forall v, json_typed v -> exists b f i n p g,
  api_is_number v = Ok b /\ api_is_float v = Ok f /\ api_is_integer v = Ok i /\ api_is_negative v = Ok n /\ api_is_positive v = Ok p /\
  greater_than_int64_max v = Ok g /\
  (b = false -> f = false /\ i = false /\ n = false /\ p = false /\ g = false) /\
  (b = true -> i = negb f /\ p = negb n /\ (n = true -> g = false)).
Proof. exact number_predicates. Qed.
Print Assumptions C41_number_predicates.

(** The number predicates are wrong for NewFloat64 of a fraction ... *)
Theorem C41_refuted : exists f, f = f_of_dec false 15 (-1) /\ forall E,
  api_is_integer (new_float64 E f) = Ok true /\ api_is_float (new_float64 E f) = Ok false.
Proof. exact float_is_integer. Qed.
Print Assumptions C41_refuted.

(** ... and GreaterThanInt64Max for a fraction just below the maximum. *)
Theorem C41_greater_refuted : exists lit ip fd,
  num_lit lit false ip fd 0 false /\ digits_val (ip ++ fd) < (two63 - 1) * 10 ^ Z.of_nat (List.length fd) /\
  forall E, exists n, unmarshal E lit = Ok (VNum n lit, None) /\ greater_than_int64_max (VNum n lit) = Ok true.
Proof. exact greater_than_wrong. Qed.
Print Assumptions C41_greater_refuted.

(** They describe the literals of integers a parsed document contains. *)
Theorem C41_parsed_partial : forall (E : Env) b v, Forall is_byte b -> unmarshal E b = Ok (v, None) ->
  all_text (fun _ => True) (fun n lit =>
    let v := VNum n lit in
    (int_lit lit -> api_is_integer v = Ok true /\ api_is_float v = Ok false) /\
    (~ int_lit lit -> api_is_integer v = Ok false /\ api_is_float v = Ok true) /\
    (digits lit -> api_is_negative v = Ok false /\ api_is_positive v = Ok true /\
       (digits_val lit < two64 -> greater_than_int64_max v = Ok (two63 <=? digits_val lit))) /\
    (forall ip, lit = 45 :: ip -> digits ip ->
       api_is_negative v = Ok true /\ api_is_positive v = Ok false /\ greater_than_int64_max v = Ok false) /\
    (~ int_lit lit -> api_is_negative v = Ok (SFltb (n_f64 n) f_zero))) v.
Proof. exact parsed_described. Qed.
Print Assumptions C41_parsed_partial.

Example C41_instance : forall E W,
  let v := VArr [VNull; VStr (bs "x")] in
  api_len v = Ok 2%nat /\ api_is_array v = Ok true /\ api_is_object v = Ok false /\
  snd (get E W false v (PInt (-2)) []) = Ok VNull /\ snd (get E W false v (PInt 2) []) = Err ErrOutOfRange /\
  exists n, unmarshal E (bs "9223372036854775808") = Ok (VNum n (bs "9223372036854775808"), None) /\
    greater_than_int64_max (VNum n (bs "9223372036854775808")) = Ok true /\ api_is_negative (VNum n []) = Ok false.
Proof. intros E W. do 5 (split; [reflexivity|]). eexists. split; [vm_compute; reflexivity|]. split; reflexivity. Qed.

(** C42 is false for the empty input: Unmarshal returns a nil *V, whose methods
    panic. *)
Theorem C42_refuted : exists b, forall E, unmarshal E b = Ok (VNil, Some ErrNilParameter) /\
  forall W cl p, plain p -> snd (get E W cl VNil p []) = Panic /\ get_int E W cl VNil p [] = Panic.
Proof. exact failed_parse_nil. Qed.
Print Assumptions C42_refuted.

Theorem C42_partial : forall (E : Env) b v e, b <> [] -> unmarshal E b = Ok (v, Some e) ->
  value_type v = Ok TNotExist /\
  forall W cl p o,
    (exists e, snd (get E W cl v p o) = Err e) /\
    must_get E W cl v p o = (v, Ok VNotExist) /\
    (exists e, get_int E W cl v p o = Ok (0, Some e)) /\
    (exists e, get_string E W cl v p o = Ok ([], Some e)) /\
    (exists e, get_bool E W cl v p o = Ok (false, Some e)) /\
    (exists e, get_array E W cl v p o = Ok (VNotExist, Some e)) /\
    (exists e, get_object E W cl v p o = Ok (VNotExist, Some e)) /\
    (exists e, get_null E W cl v p o = Ok (tt, Some e)) /\
    api_len v = Ok 0%nat /\ api_string E W [] v = [] /\ (exists i, api_int E v = Ok i) /\
    (forall c, set_at E v (arg_v c) p o = (v, Err ErrMultipleParam) \/ set_at E v (arg_v c) p o = (v, Err ErrValueUninitialized)).
Proof. exact failed_parse_value. Qed.
Print Assumptions C42_partial.

Example C42_instance : exists v e, unmarshal env0 (bs "{""a"":[1,}") = Ok (v, Some e) /\ value_type v = Ok TNotExist /\
  get_int env0 world1 false v (PStr (bs "a")) [PInt 0] = Ok (0, Some EOther).
Proof. do 2 eexists. split; [vm_compute; reflexivity|]. split; vm_compute; reflexivity. Qed.

(** C43: String of a parsed document. *)
Theorem C43_string : forall (E : Env) (W : World) b v, Forall is_byte b -> unmarshal E b = Ok (v, None) ->
  prints v (api_string E W [] v).
Proof. exact parsed_prints. Qed.
Print Assumptions C43_string.

(** And of every value. *)
Theorem C43_any : forall (E : Env) (W : World) v, prints_any E v (api_string E W [] v).
Proof. intros E W v. exact (string_any E W v []). Qed.
Print Assumptions C43_any.

Example C43_any_instance : forall (E : Env) (W : World),
  api_string E W [] (VArr [VNil; VNum (Num false true 0 0 S754_nan) []; VNotExist]) = bs "[nil, " ++ fmt_float E S754_nan 103 (-1) 64 ++ bs ", ]".
Proof. intros E W. cbn. rewrite <- !app_assoc. reflexivity. Qed.

Example C43_instance : exists v, unmarshal env0 (bs "{""a"":[1,2.50,""x y""],""b"":{}}") = Ok (v, None) /\
  api_string env0 world1 [] v = bs "{a: [1, 2.50, x y], b: {}}".
Proof. eexists. split; [vm_compute; reflexivity|]. vm_compute. reflexivity. Qed.
