(** Exactly when the output is JSON (C04, C06, C07, C30, C31), and when it
    can be read back (C05). *)
From Verif Require Import Base Float64 Value Scan Unmarshal Opt Marshal
  SpecJson SpecValue SpecLax SpecText SpecOrder SpecOut SpecOpts SpecSpell SpecHole
  OutClaims OutHole OutExamples RoundExact MarshalExamples ExampleWorld.

(** C04.  The output is JSON exactly if no string holds U+000B and the text of
    every number is a literal of JSON; and then it shows the value. *)
Theorem C04_json_exactly : forall (E : Env) (W : World) (o : opt) (v : V),
  o_omit_null o = false -> opt_ws o -> json_typed v -> all_text (Forall is_byte) num_bytes v ->
  exists b, marshal_opt E W o v = Ok b /\
    ((exists j, json_doc b j) <-> all_text (fun s => ~ In 11 s) (fun _ src => rfc_lit src) v) /\
    forall j, json_doc b j -> shows_text v j.
Proof. exact json_exactly. Qed.
Print Assumptions C04_json_exactly.

(** A parsed document may be marshalled to a text that is not JSON. *)
Theorem C04_reparse_refuted : forall W : World, exists v,
  unmarshal env0 (bs "[-01]") = Ok (v, None) /\ json_typed v /\ all_text (Forall is_byte) num_bytes v /\
  marshal_opt env0 W opt0 v = Ok (bs "[-01]") /\ forall j, ~ json_doc (bs "[-01]") j.
Proof. exact reparse_not_json. Qed.
Print Assumptions C04_reparse_refuted.

(** C06 and C07.  U+000B is the only control character that is written raw, and
    it is written wherever it occurs. *)
Theorem C06_alphabet_exactly : forall (E : Env) (W : World) (o : opt) (v : V),
  plain_env E -> Forall str_ok (opt_strings o) ->
  o_omit_null o = false -> opt_ws o -> json_typed v -> all_text (Forall is_byte) num_bytes v ->
  exists b, marshal_opt E W o v = Ok b /\
    (Forall (fun c => 32 <= c /\ c <> 127 \/ indentation o c) b <-> all_text (fun s => ~ In 11 s) (fun _ _ => True) v) /\
    (~ utf8_on o ->
     (Forall (fun c => printable c \/ indentation o c) b <-> all_text (fun s => ~ In 11 s) (fun _ _ => True) v)).
Proof. exact alphabet_exactly. Qed.
Print Assumptions C06_alphabet_exactly.

(** C30 with OptOmitNull (and C04 without it), for any order of the members:
    [v'] is [v] with its members in the order in which they are written.  The
    output is JSON exactly if the texts written are in order and, in every
    object, the nulls left out stand before or behind all other members. *)
Theorem C30_json_exactly : forall (E : Env) (W : World) (o : opt) (v : V),
  opt_ws o -> json_typed v -> all_text (Forall is_byte) num_bytes v ->
  exists v' b, rearranged v v' /\ marshal_opt E W o v = Ok b /\
    ((exists j, json_doc b j) <->
     written_text (o_omit_null o) (fun s => ~ In 11 s) (fun _ src => rfc_lit src) v' /\ all_objs (contiguous (o_omit_null o)) v') /\
    forall j, json_doc b j -> shows num_text (o_omit_null o) any_order v j.
Proof. exact omit_any. Qed.
Print Assumptions C30_json_exactly.

(** The same under each ordering option, which fixes the order of [v']. *)
Theorem C30_default_exactly : forall (E : Env) (W : World) (o : opt) (v : V),
  o_less o = Some default_string_sequence ->
  opt_ws o -> json_typed v -> all_text (Forall is_byte) num_bytes v ->
  exists v' b, rearranged v v' /\ all_objs (by_key blt) v' /\ marshal_opt E W o v = Ok b /\
    ((exists j, json_doc b j) <->
     written_text (o_omit_null o) (fun s => ~ In 11 s) (fun _ src => rfc_lit src) v' /\ all_objs (contiguous (o_omit_null o)) v') /\
    forall j, json_doc b j -> shows num_text (o_omit_null o) (by_key blt) v j.
Proof. exact omit_default. Qed.
Print Assumptions C30_default_exactly.

Theorem C30_keyseq_exactly : forall (E : Env) (W : World) (o : opt) (v : V),
  o_less o = None -> o_keyseq o <> [] ->
  opt_ws o -> json_typed v -> all_text (Forall is_byte) num_bytes v ->
  exists v' b, rearranged v v' /\ all_objs (by_key (seq_before (o_keyseq o))) v' /\ marshal_opt E W o v = Ok b /\
    ((exists j, json_doc b j) <->
     written_text (o_omit_null o) (fun s => ~ In 11 s) (fun _ src => rfc_lit src) v' /\ all_objs (contiguous (o_omit_null o)) v') /\
    forall j, json_doc b j -> shows num_text (o_omit_null o) (by_key (seq_before (o_keyseq o))) v j.
Proof. exact omit_keyseq. Qed.
Print Assumptions C30_keyseq_exactly.

Theorem C30_setseq_exactly : forall (E : Env) (W : World) (o : opt) (v : V),
  o_less o = None -> o_keyseq o = [] -> o_setseq o = true ->
  all_objs (fun kvs => NoDup (map (fun x => fst (snd x)) kvs)) v ->
  opt_ws o -> json_typed v -> all_text (Forall is_byte) num_bytes v ->
  exists v' b, rearranged v v' /\ all_objs by_id v' /\ marshal_opt E W o v = Ok b /\
    ((exists j, json_doc b j) <->
     written_text (o_omit_null o) (fun s => ~ In 11 s) (fun _ src => rfc_lit src) v' /\ all_objs (contiguous (o_omit_null o)) v') /\
    forall j, json_doc b j -> shows num_text (o_omit_null o) by_id v j.
Proof. exact omit_setseq. Qed.
Print Assumptions C30_setseq_exactly.

(** Nulls at both ends in the order of the names are harmless, one between two
    other members is not. *)
Example C30_exact_instance : forall E W,
  marshal_opt E W opt_sorted_omit nulls_out = Ok (bs "{""b"":""x"",""c"":true}") /\ (exists j, json_doc (bs "{""b"":""x"",""c"":true}") j) /\
  marshal_opt E W opt_sorted_omit null_in = Ok (bs "{""b"":""x""""d"":true}") /\ (forall j, ~ json_doc (bs "{""b"":""x""""d"":true}") j).
Proof. exact nulls_ok. Qed.

(** C05.  A value comes back exactly if repairing does not identify two names
    of one object (with OptOmitNull: of members that are not null). *)
Theorem C05_round_trip_exactly : forall (E : Env) (W : World) (o : opt) (v : V),
  opt_ws o -> json_typed v -> all_text (Forall is_byte) (fun _ src => lax_num src) v ->
  exists b v', marshal_opt E W o v = Ok b /\ unmarshal E b = Ok (v', None) /\
    (same_json (fun _ src n' => lax_value src n') (o_omit_null o) v v' <->
     all_objs (fun kvs => names_distinct (kept (o_omit_null o) kvs)) v).
Proof. exact round_trip_text_exact. Qed.
Print Assumptions C05_round_trip_exactly.

Theorem C05_parsed_exactly : forall (E : Env) (W : World) (o : opt) (b : bytes) (v : V),
  opt_ws o -> Forall is_byte b -> unmarshal E b = Ok (v, None) ->
  exists b' v', marshal_opt E W o v = Ok b' /\ unmarshal E b' = Ok (v', None) /\
    (same_json (fun n _ n' => n = n') (o_omit_null o) v v' <->
     all_objs (fun kvs => names_distinct (kept (o_omit_null o) kvs)) v).
Proof. exact round_trip_parsed_exact. Qed.
Print Assumptions C05_parsed_exactly.

Example C05_exact_instance : all_objs (fun kvs => names_distinct (kept true kvs)) collide_null /\
  ~ all_objs (fun kvs => names_distinct (kept false kvs)) collide_null.
Proof. exact collide_exact. Qed.

(** C31, default policy, any value but a NaN or infinity itself (which gives an
    error, C31_default_partial).  There is no error; the numbers without text
    are left out, and the output is JSON exactly if each of them is alone in an
    array (and the other texts are in order); it then shows that array empty. *)
Theorem C31_default_exactly : forall (E : Env) (W : World) (o : opt) (v : V),
  o_nan o = 0 -> o_inf o = 0 -> o_omit_null o = false -> opt_ws o ->
  json_typed v -> all_text (Forall is_byte) (fun _ src => Forall number_byte src) v -> (forall n, v <> VNum n []) ->
  exists b, marshal_opt E W o v = Ok b /\
    ((exists j, json_doc b j) <-> all_text (fun s => ~ In 11 s) (fun _ src => rfc_lit src) (emptied v)) /\
    forall j, json_doc b j -> shows_text (emptied v) j.
Proof. exact textless_exactly. Qed.
Print Assumptions C31_default_exactly.

(** So no output shows such a value. *)
Theorem C31_never_shown : forall (b : bytes) (v : V) (j : jv), textless_in v -> json_doc b j -> ~ shows_text v j.
Proof. exact textless_never. Qed.
Print Assumptions C31_never_shown.

Example C31_exact_instance : forall E W,
  marshal_opt E W opt0 (VArr [VArr [nan]; VStr []]) = Ok (bs "[[],""""]") /\ emptied (VArr [VArr [nan]; VStr []]) = VArr [VArr []; VStr []] /\
  marshal_opt E W opt0 (VArr [nan; VBool true]) = Ok (bs "[,true]") /\ (forall j, ~ json_doc (bs "[,true]") j).
Proof. exact textless_example. Qed.
