(** Properties of Marshal (C04-C07, C12, C24, C30-C32, C38, C44). *)
From Verif Require Import Base Float64 Value Scan Unmarshal Opt Marshal Defaults
  SpecJson SpecValue SpecLax SpecText SpecOrder SpecOut SpecOpts
  MarshalProof RoundTrip MarshalFacts IndentProof MarshalClaims MarshalExamples ExampleWorld.

(** C04 is false: a vertical tab is not escaped. *)
Theorem C04_refuted : forall (E : Env) (W : World) (o : opt), exists b,
  marshal_opt E W o (VStr [11]) = Ok b /\ forall j, ~ json_doc b j.
Proof. exact vt_not_json. Qed.
Print Assumptions C04_refuted.

(** C04 for strings of bytes without U+000B ([str_ok]) and numbers whose text
    is a number literal: the output is an RFC 8259 text whose tree shows the
    value ([shows_text]).  Missing: strings with U+000B. *)
Theorem C04_marshal_json_partial : forall (E : Env) (W : World) (o : opt) (v : V),
  o_omit_null o = false -> opt_ws o -> json_typed v -> all_text str_ok (fun _ src => rfc_lit src) v ->
  exists b j, marshal_opt E W o v = Ok b /\ json_doc b j /\ shows_text v j.
Proof. exact marshal_json. Qed.
Print Assumptions C04_marshal_json_partial.

Example C04_instance :
  json_typed ex_val /\ all_text str_ok (fun _ src => rfc_lit src) ex_val /\
  marshal_opt env0 world1 opt0 ex_val = Ok (bs "{""x\/\u003C"":[null,true,-1.5,""\u00E9\uFFFD\n""],""a"":{}}") /\
  marshal_opt env0 world2 opt_loose ex_val =
    Ok (bs "{""a"":{},""x/<"":[null,true,-1.5,""" ++ [195; 169; 239; 191; 189] ++ bs "\n""]}").
Proof. exact ex_val_ok. Qed.

(** C05 is false: two ill-formed names may be repaired to the same name. *)
Theorem C05_refuted : exists b, Forall is_byte b /\ forall E W, exists v b' v',
  unmarshal E b = Ok (v, None) /\ marshal_opt E W opt_sorted v = Ok b' /\ unmarshal E b' = Ok (v', None) /\
  ~ same_json (fun _ _ _ => True) false v v'.
Proof. exact collide_refuted. Qed.
Print Assumptions C05_refuted.

(** C05 where repairing does not identify names: any value whose numbers have
    an accepted text, and any parsed value.  Missing: names that collide. *)
Theorem C05_round_trip_partial : forall (E : Env) (W : World) (o : opt) (v : V),
  opt_ws o -> json_typed v -> all_text (Forall is_byte) (fun _ src => lax_num src) v ->
  exists b v', marshal_opt E W o v = Ok b /\ unmarshal E b = Ok (v', None) /\
    (all_objs names_distinct v -> same_json (fun _ src n' => lax_value src n') (o_omit_null o) v v').
Proof. exact round_trip_text. Qed.
Print Assumptions C05_round_trip_partial.

Theorem C05_round_trip_parsed_partial : forall (E : Env) (W : World) (o : opt) (b : bytes) (v : V),
  opt_ws o -> Forall is_byte b -> unmarshal E b = Ok (v, None) ->
  exists b' v', marshal_opt E W o v = Ok b' /\ unmarshal E b' = Ok (v', None) /\
    (all_objs names_distinct v -> same_json (fun n _ n' => n = n') (o_omit_null o) v v').
Proof. exact round_trip_parsed. Qed.
Print Assumptions C05_round_trip_parsed_partial.

Example C05_instance : forall E, exists v v',
  unmarshal E (bs "{""k"":[1.0e3,""\uD83D\uDE00\u000b""],""m"":{""n"":null}}") = Ok (v, None) /\
  marshal_opt E world2 opt_pretty v = Ok ex_pretty /\ unmarshal E ex_pretty = Ok (v', None) /\
  all_objs names_distinct v /\ same_json (fun n _ n' => n = n') false v v'.
Proof. exact ex_round_trip. Qed.

(** C06 is false for the same reason as C04. *)
Theorem C06_refuted : forall (E : Env) (W : World), exists b c,
  marshal_opt E W opt0 (VStr [11]) = Ok b /\ ~ utf8_on opt0 /\ o_indent opt0 = false /\ In c b /\ ~ printable c.
Proof. exact vt_not_printable. Qed.
Print Assumptions C06_refuted.

(** C06 for strings of bytes; the two claims on control characters for strings
    without U+000B.  Missing: U+000B. *)
Theorem C06_alphabet_partial : forall (E : Env) (W : World) (o : opt) (v : V) (b : bytes),
  plain_env E -> marshal_opt E W o v = Ok b ->
  all_text (Forall is_byte) (fun _ src => Forall number_byte src) v -> Forall (Forall is_byte) (opt_strings o) ->
  (~ utf8_on o -> all_text (fun s => ~ In 11 s) (fun _ _ => True) v -> Forall (fun s => ~ In 11 s) (opt_strings o) ->
     Forall (fun c => printable c \/ indentation o c) b) /\
  (well_formed (o_prefix o) -> well_formed (o_indent_str o) ->
     well_formed b /\
     (all_text (fun s => ~ In 11 s) (fun _ _ => True) v -> Forall (fun s => ~ In 11 s) (opt_strings o) ->
      Forall (fun c => 32 <= c /\ c <> 127 \/ indentation o c) b)) /\
  (~ html_off o -> forall c, In c b -> (c = 60 \/ c = 62 \/ c = 38) -> indentation o c) /\
  (~ slash_off o -> ~ In 47 (o_prefix o) -> ~ In 47 (o_indent_str o) -> slashes_escaped b).
Proof. exact alphabet. Qed.
Print Assumptions C06_alphabet_partial.

Example C06_instance :
  marshal_opt env0 world1 opt0 (VStr [60; 47; 127; 1; 240; 159; 152; 128]) = Ok (bs """\u003C\/\u007F\u0001\uD83D\uDE00""").
Proof. reflexivity. Qed.

(** C07.  The text of a string denotes its scalar values with every bad byte
    read as U+FFFD ([fixed]); as an RFC 8259 string if it has no U+000B, as a
    string of the accepted language in any case.  Missing: RFC 8259 validity of
    strings with U+000B (false, see C04). *)
Theorem C07_string_text_partial : forall (E : Env) (W : World) (o : opt) (s : bytes), Forall is_byte s -> exists t s',
  marshal_opt E W o (VStr s) = Ok (34 :: t ++ [34]) /\ fixed s s' /\ lstr t s' /\
  (~ In 11 s -> str_body t s') /\ (well_formed s -> s' = s).
Proof. exact string_text. Qed.
Print Assumptions C07_string_text_partial.

Theorem C07_refuted : forall (E : Env) (W : World) (o : opt), exists b,
  marshal_opt E W o (VStr [11]) = Ok b /\ forall j, ~ json_doc b j.
Proof. exact vt_not_json. Qed.
Print Assumptions C07_refuted.

Example C07_instance :
  fixed [97; 255; 195; 237; 160; 128] ([97] ++ flat_map utf8 (repeat 65533 5)) /\
  marshal_opt env0 world1 opt0 (VStr [97; 255; 195; 237; 160; 128]) = Ok (bs """a\uFFFD\uFFFD\uFFFD\uFFFD\uFFFD""").
Proof. exact ex_fixed. Qed.

(** C12.  Parsing a text with repeated names and marshalling with
    OptSetSequence gives the text in which of each name only the last member
    is left, in its place ([norm]).  The input is shorter than 4 GiB, so that
    the 32-bit insertion counter does not wrap. *)
Theorem C12_duplicates : forall (E : Env) (W : World) (o : opt) (b : bytes) (j : jv),
  opt_ws o -> o_omit_null o = false -> o_less o = None -> o_keyseq o = [] -> o_setseq o = true ->
  Forall is_byte b -> Z.of_nat (List.length b) < two32 -> lax_doc b j ->
  exists v b' j', unmarshal E b = Ok (v, None) /\ tree_of lax_value j v /\
    marshal_opt E W o v = Ok b' /\ lax_doc b' j' /\ norm j j'.
Proof. exact duplicates. Qed.
Print Assumptions C12_duplicates.

Example C12_instance : forall E, exists v,
  unmarshal E (bs "{""z"":1,""a"":2,""z"":[{""q"":1,""q"":2}]}") = Ok (v, None) /\
  marshal_opt E world2 (combine_options opt0 [OSetSeq]) v = Ok (bs "{""a"":2,""z"":[{""q"":2}]}").
Proof. exact ex_duplicates. Qed.

(** C24.  With an ordering that never ties different names the output does not
    depend on the world (map iteration order, sorting algorithm). *)
Theorem C24_determined : forall (E : Env) (W W' : World) (o : opt) (v : V),
  json_typed v -> all_objs (total_order o) v -> marshal_opt E W o v = marshal_opt E W' o v.
Proof. exact output_determined. Qed.
Print Assumptions C24_determined.

(** OptDefaultStringSequence: members in byte order of their names. *)
Theorem C24_default_sequence : forall (E : Env) (W : World) (o : opt) (v : V),
  opt_ws o -> o_omit_null o = false -> json_typed v -> all_text str_ok (fun _ src => rfc_lit src) v ->
  o_less o = Some default_string_sequence ->
  exists b j, marshal_opt E W o v = Ok b /\ json_doc b j /\ shows num_text false (by_key blt) v j.
Proof. exact order_default. Qed.
Print Assumptions C24_default_sequence.

(** OptKeySequence: listed names first, in list order, then the others in byte order. *)
Theorem C24_key_sequence : forall (E : Env) (W : World) (o : opt) (v : V),
  opt_ws o -> o_omit_null o = false -> json_typed v -> all_text str_ok (fun _ src => rfc_lit src) v ->
  o_less o = None -> o_keyseq o <> [] ->
  exists b j, marshal_opt E W o v = Ok b /\ json_doc b j /\ shows num_text false (by_key (seq_before (o_keyseq o))) v j.
Proof. exact order_keyseq. Qed.
Print Assumptions C24_key_sequence.

Theorem C24_default_is_total : less_total default_string_sequence.
Proof. exact default_total. Qed.
Print Assumptions C24_default_is_total.

Example C24_instance : forall E,
  marshal_opt E world1 opt0 ex_members = Ok (bs "{""c"":1,""a"":2,""b"":3}") /\
  marshal_opt E world2 opt0 ex_members = Ok (bs "{""b"":3,""a"":2,""c"":1}") /\
  (forall W, marshal_opt E W opt_sorted ex_members = Ok (bs "{""a"":2,""b"":3,""c"":1}")) /\
  (forall W, marshal_opt E W (combine_options opt0 [OKeySeq [bs "b"; bs "x"; bs "b"]]) ex_members = Ok (bs "{""b"":3,""a"":2,""c"":1}")).
Proof. exact ex_orders. Qed.

(** C30 is false: a null between two other members swallows the comma. *)
Theorem C30_refuted : exists o v b, o_omit_null o = true /\ opt_ws o /\ json_typed v /\
  all_text str_ok (fun _ src => rfc_lit src) v /\
  (forall E W, marshal_opt E W o v = Ok b) /\ forall j, ~ json_doc b j.
Proof. exact omit_refuted. Qed.
Print Assumptions C30_refuted.

(** C30 where each object has no null member, or at most one other member: the
    output is JSON and shows the value without its null members ([shows] with
    its second argument true).  Missing: objects with a null and two or more
    other members. *)
Theorem C30_omit_null_partial : forall (E : Env) (W : World) (o : opt) (v : V),
  opt_ws o -> json_typed v -> all_text str_ok (fun _ src => rfc_lit src) v -> all_objs (omit_guard true) v ->
  o_omit_null o = true ->
  exists b j, marshal_opt E W o v = Ok b /\ json_doc b j /\ shows num_text true any_order v j.
Proof. exact omit_null_json. Qed.
Print Assumptions C30_omit_null_partial.

Example C30_instance : forall E,
  all_objs (omit_guard true) ex_omit /\
  marshal_opt E world1 (combine_options opt0 [OOmitNull true]) ex_omit = Ok (bs "{""a"":{""x"":[null]}}").
Proof. exact ex_omit_ok. Qed.

(** C31 is false under the default policy: a NaN inside an array is dropped
    without an error. *)
Theorem C31_refuted : exists v,
  all_text (fun _ => True) (fun n src => src = [] /\ n_f64 n = S754_nan) v /\
  (forall E W, marshal_opt E W opt0 v = Ok (bs "[]")) /\ v = VArr [VNum (Num false false 0 0 S754_nan) []].
Proof. exact policy_refuted. Qed.
Print Assumptions C31_refuted.

(** C31 with a policy for NaN and for Inf: the output is JSON, and every number
    without text (NaN, +Inf, -Inf) is shown as configured ([num_policy]). *)
Theorem C31_policy_partial : forall (E : Env) (W : World) (o : opt) (v : V),
  json_env E -> policy_set o -> Forall str_ok (opt_strings o) -> o_omit_null o = false -> opt_ws o -> json_typed v ->
  all_text str_ok (fun n src => rfc_lit src \/ (src = [] /\ ~ finite_float (n_f64 n))) v ->
  exists b j, marshal_opt E W o v = Ok b /\ json_doc b j /\ shows (num_policy E o) false any_order v j.
Proof. exact policy_output. Qed.
Print Assumptions C31_policy_partial.

(** C31, default policy, for a number that is the whole document.  Missing:
    numbers inside containers (false, see above). *)
Theorem C31_default_partial : forall (E : Env) (W : World) (o : opt) (n : num) (src : bytes),
  o_nan o = 0 -> o_inf o = 0 ->
  (src = [] -> marshal_opt E W o (VNum n src) = Err ErrUnsupportedFloat) /\
  (src <> [] -> marshal_opt E W o (VNum n src) = Ok src).
Proof. exact policy_default. Qed.
Print Assumptions C31_default_partial.

Example C31_instance : forall E,
  marshal_opt E world1 (combine_options opt0 [OInfStr (bs "++inf") []; ONaNNull]) ex_floats
    = Ok (bs "[null,""++inf"",""-inf"",1]") /\
  marshal_opt E world1 (combine_options opt0 [OInfNull; ONaNStr []]) ex_floats = Ok (bs "[""NaN"",null,null,1]").
Proof. exact ex_policies. Qed.

(** C32.  The indented output and the compact output are two renderings
    ([render], SpecOut.v) of one tree of texts. *)
Theorem C32_layout : forall (E : Env) (W : World) (o : opt) (v : V) (b : bytes),
  o_omit_null o = false -> o_indent o = true -> json_typed v -> marshal_opt E W o v = Ok b ->
  exists t, b = render (Some (o_prefix o, o_indent_str o)) 0 t /\
            marshal_opt E W (no_indent o) v = Ok (render None 0 t).
Proof. exact indent_layout. Qed.
Print Assumptions C32_layout.

(** Deleting the white space outside strings gives the compact output. *)
Theorem C32_squeeze : forall (E : Env) (W : World) (o : opt) (v : V) (b : bytes),
  o_omit_null o = false -> opt_ws o -> json_typed v -> plain_env E ->
  all_text (Forall is_byte) (fun _ src => Forall number_byte src) v -> Forall (Forall is_byte) (opt_strings o) ->
  marshal_opt E W o v = Ok b -> marshal_opt E W (no_indent o) v = Ok (squeeze false b).
Proof. exact indent_squeeze. Qed.
Print Assumptions C32_squeeze.

Example C32_instance : forall E,
  marshal_opt E world1 opt_pretty ex_layout = Ok ex_layout_text /\
  marshal_opt E world1 (no_indent opt_pretty) ex_layout = Ok (bs "{""a b"":[1,{}],""c"":[]}").
Proof. exact ex_layout_ok. Qed.

(** C38.  Each aspect of the options in effect is what the last option that
    says something on it says ([last_said], SpecOpts.v). *)
Theorem C38_last_option_wins : forall (d : opt) (opts : list option_), let o := combine_options d opts in
  last_said say_omit_null opts (o_omit_null d) (o_omit_null o) /\
  last_said say_ignore_omitempty opts (o_ignore_omitempty d) (o_ignore_omitempty o) /\
  last_said say_order opts (o_less d, o_keyseq d, o_setseq d) (o_less o, o_keyseq o, o_setseq o) /\
  last_said say_nan opts (o_nan d) (o_nan o) /\
  last_said say_nan_float opts (o_nan_float d) (o_nan_float o) /\
  last_said say_nan_str opts (o_nan_str d) (o_nan_str o) /\
  last_said say_inf opts (o_inf d) (o_inf o) /\
  last_said say_inf_float opts (o_inf_float d) (o_inf_float o) /\
  last_said say_inf_str opts (o_inf_pos d, o_inf_neg d) (o_inf_pos o, o_inf_neg o) /\
  last_said say_utf8 opts (Z.testbit (o_esc d) 0) (Z.testbit (o_esc o) 0) /\
  last_said say_html_off opts (Z.testbit (o_esc d) 1) (Z.testbit (o_esc o) 1) /\
  last_said say_slash_off opts (Z.testbit (o_esc d) 2) (Z.testbit (o_esc o) 2) /\
  last_said say_indent opts (o_indent d, o_prefix d, o_indent_str d) (o_indent o, o_prefix o, o_indent_str o).
Proof. exact options_said. Qed.
Print Assumptions C38_last_option_wins.

(** A Marshal call after any history of calls uses the options of the last
    SetDefaultMarshalOptions not followed by a reset, then its own; calls of
    Marshal in the history have no influence, nor has anything after it. *)
Theorem C38_defaults : forall (E : Env) (W : World) (cs rest : list api_call) (l opts : list option_) (v : V),
  in_force cs l ->
  nth_error (exec_calls E W opt0 (cs ++ CallMarshal opts v :: rest)) (List.length cs)
  = Some (Some (marshal_opt E W (combine_options opt0 (l ++ opts)) v)).
Proof. intros E W cs rest l opts v. exact (defaults_in_force E W cs l opts v rest). Qed.
Print Assumptions C38_defaults.

Example C38_instance : forall E,
  exec_calls E world1 opt0
    [CallSetDefault [OUTF8; OIndent [] [9]]; CallMarshal [OOpt opt0] (VArr [VNull]); CallSetDefault [OEscapeSlash false];
     CallMarshal [OUTF8] (VStr [47; 195; 169]); CallReset; CallMarshal [] (VStr [47; 195; 169])]
  = [None; Some (Ok (bs "[null]")); None; Some (Ok (34 :: 47 :: 195 :: 169 :: [34])); None; Some (Ok (bs """\/\u00E9"""))].
Proof. intros E. vm_compute. reflexivity. Qed.

(** C44.  The output depends on the less function only through calls for two
    members of an object of the document with the key path of that object
    ([proper_call], SpecOut.v). *)
Theorem C44_key_path : forall (E : Env) (W : World) (o : opt) (f f' : less_func) (v : V),
  (forall pi k1 k2 v1 v2, proper_call v pi k1 k2 v1 v2 -> f pi k1 k2 v1 v2 = f' pi k1 k2 v1 v2) ->
  marshal_opt E W (with_less o f) v = marshal_opt E W (with_less o f') v.
Proof. exact less_calls. Qed.
Print Assumptions C44_key_path.

(** In a key path the empty member name is the same as index 0. *)
Theorem C44_empty_name : step_key (SKey []) = step_key (SIdx 0).
Proof. reflexivity. Qed.
Print Assumptions C44_empty_name.

Example C44_instance : forall E,
  proper_call ex_nested (Some (PInfo VNull [string_key (bs "o"); int_key 1])) (bs "a") (bs "b") VNull VNull /\
  marshal_opt E world1 (with_less opt0 (desc_at [string_key (bs "o"); int_key 1])) ex_nested
    = Ok (bs "{""o"":[{""a"":null,""b"":null},{""b"":null,""a"":null}]}").
Proof. exact ex_less_path. Qed.
