(** C12, C23 and C24, strengthened. *)
From Coq Require Import Permutation.
From Verif Require Import Base Float64 Value Scan Unmarshal Opt Marshal Access Path Edit
  SpecJson SpecValue SpecText SpecLax SpecOrder SpecOut SpecOpts SpecPath SpecHistory SpecSpell SpecLess
  LessProof DupWrap LessExamples ExampleWorld.

(** C12.  Of members with the same name the last one holds, whatever the size of the text: Get finds the
    value of the last one, and every other member is found in the same way. *)
Theorem C12_last_holds : forall (E : Env) (W : World) (b : bytes) (l l1 : list (bytes * jv)) k x l2,
  lax_doc b (JObj l) -> l = l1 ++ (k, x) :: l2 -> ~ In k (map fst l2) ->
  exists v c, unmarshal E b = Ok (v, None) /\ get E W false v (PStr k) [] = (v, Ok c) /\ tree_of lax_value x c.
Proof. exact last_member_holds. Qed.
Print Assumptions C12_last_holds.

(** The order of last occurrence is not kept in a text with 2^32 members: the counter that OptSetSequence
    sorts by has 32 bits.  The text is a JSON text, "a" once and then "b" 2^32 - 1 times, and what is written
    is not the text with the repeated names resolved. *)
Theorem C12_refuted : forall (E : Env) (W : World), exists b j v b', json_doc b j /\ unmarshal E b = Ok (v, None) /\
  marshal_opt E W (combine_options opt0 [OSetSeq]) v = Ok b' /\ forall j', lax_doc b' j' -> ~ norm j j'.
Proof. exact wrapped_duplicates. Qed.
Print Assumptions C12_refuted.

Example C12_last_instance : forall E W, exists v,
  unmarshal E (bs "{""a"":1,""b"":2,""a"":[]}") = Ok (v, None) /\ get E W false v (PStr (bs "a")) [] = (v, Ok (VArr [])).
Proof. intros. eexists. split; reflexivity. Qed.

(** C24.  With a less function that is a strict weak order on the members of each object (less functions are
    told the path of the object, and may order each in its own way), the text shows the value with the
    members of every object in that order: none is behind one that is greater. *)
Theorem C24_less : forall (E : Env) (W : World) (o : opt) (f : less_func) (v : V),
  opt_ws o -> o_less o = Some f -> less_weak f -> json_typed v -> all_text (Forall is_byte) (fun _ src => lax_num src) v ->
  exists v' b j, arranged f [] v v' /\ marshal_opt E W o v = Ok b /\ lax_doc b j /\ spelled (o_omit_null o) v' j.
Proof. exact less_sorts. Qed.
Print Assumptions C24_less.

(** C24_default_sequence and C24_key_sequence for every value whose number texts the parser accepts, with
    and without OptOmitNull. *)
Theorem C24_default_accepted : forall (E : Env) (W : World) (o : opt) (v : V),
  opt_ws o -> json_typed v -> all_text (Forall is_byte) (fun _ src => lax_num src) v ->
  o_less o = Some default_string_sequence ->
  exists b j, marshal_opt E W o v = Ok b /\ lax_doc b j /\ shows num_text (o_omit_null o) (by_key blt) v j.
Proof. exact default_lax. Qed.
Print Assumptions C24_default_accepted.

Theorem C24_keyseq_accepted : forall (E : Env) (W : World) (o : opt) (v : V),
  opt_ws o -> json_typed v -> all_text (Forall is_byte) (fun _ src => lax_num src) v ->
  o_less o = None -> o_keyseq o <> [] ->
  exists b j, marshal_opt E W o v = Ok b /\ lax_doc b j /\ shows num_text (o_omit_null o) (by_key (seq_before (o_keyseq o))) v j.
Proof. exact keyseq_lax. Qed.
Print Assumptions C24_keyseq_accepted.

Example C24_less_instance : less_weak zigzag /\
  marshal_opt env0 world1 (combine_options opt0 [OLess (Some zigzag)]) zz_doc = Ok (bs "{""a"":{""yy"":null,""x"":null},""bb"":false,""ccc"":true}") /\
  marshal_opt env0 world2 (combine_options opt0 [OLess (Some zigzag); OOmitNull true]) zz_doc = Ok (bs "{""a"":{},""bb"":false,""ccc"":true}").
Proof. split; [exact zigzag_weak|]. split; vm_compute; reflexivity. Qed.

(** C23 for objects whose members were set less than 2^32 times, for every value whose number texts the
    parser accepts and with or without OptOmitNull: the members are written in the order of last setting,
    each with its value.  Missing: 2^32 settings and more, where the statement is false (C23_refuted). *)
Theorem C23_order_accepted_partial : forall (E : Env) (W : World) (o : opt) n v ks,
  set_history E n v ks -> Z.of_nat n < two32 ->
  opt_ws o -> json_typed v -> all_text (Forall is_byte) (fun _ src => lax_num src) v ->
  o_less o = None -> o_keyseq o = [] -> o_setseq o = true ->
  exists i kvs lo kvs' b ms, v = VObj i kvs lo /\ Permutation kvs kvs' /\ map fst kvs' = ks /\
    marshal_opt E W o v = Ok b /\ lax_doc b (JObj ms) /\
    Forall2 (fun x m => fixed (fst x) (fst m) /\ shows num_text (o_omit_null o) any_order (snd (snd x)) (snd m))
      (kept (o_omit_null o) kvs') ms.
Proof. exact set_order_lax. Qed.
Print Assumptions C23_order_accepted_partial.

Theorem C23_inner_accepted_partial : forall (E : Env) (W : World) (o : opt) n v,
  history E n v -> Z.of_nat n < two32 ->
  opt_ws o -> json_typed v -> all_text (Forall is_byte) (fun _ src => lax_num src) v ->
  o_less o = None -> o_keyseq o = [] -> o_setseq o = true ->
  exists b j, marshal_opt E W o v = Ok b /\ lax_doc b j /\ shows num_text (o_omit_null o) by_id v j.
Proof. exact history_order_lax. Qed.
Print Assumptions C23_inner_accepted_partial.
