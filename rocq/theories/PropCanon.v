(** Texts that parsing and Marshal reproduce (C60), and one reading per text (C11). *)
From Verif Require Import Base Utf8 Float64 Value Scan Unmarshal Opt Marshal
  SpecJson SpecValue SpecLax SpecText SpecOrder SpecOpts SpecCanon ExampleWorld LaxSame CanonProof CanonExamples.

(** C11.  A text has at most one reading under the accepted grammar. *)
Theorem C11_one_reading : forall b j j', lax_doc b j -> lax_doc b j' -> j = j'.
Proof. exact lax_doc_same. Qed.
Print Assumptions C11_one_reading.

Example C11_reading_instance : lax_doc (bs "[,1,]") (JArr [JNum (bs "1")]).
Proof.
  exists [], (bs "[,1,]"), []. split; [reflexivity|]. split; [constructor|]. split; [|constructor].
  apply (LV_arr (bs ",1,")). apply (LE_comma [] (bs "1,")); [constructor|].
  apply (LE_cons [] (bs "1") _ (bs ",")); [constructor| | |apply (LE_comma [] []); repeat constructor].
  - apply LV_num. apply LN_pos; [apply IP_pos; [vm_compute; split; discriminate|constructor]|cbn; lia|discriminate].
  - unfold after_num, number_byte, digit. cbn. lia.
Qed.

(** C60.  With an order of the names, Marshal after Unmarshal should reproduce
    what Marshal wrote.  It does not always: names that are not UTF-8 change
    their place when they are replaced. *)
Theorem C60_refuted : exists v b v' b',
  unmarshal env0 doc_moves = Ok (v, None) /\ marshal_opt env0 world1 opt_sorted v = Ok b /\
  unmarshal env0 b = Ok (v', None) /\ marshal_opt env0 world1 opt_sorted v' = Ok b' /\ b <> b'.
Proof. exact moves. Qed.
Print Assumptions C60_refuted.

Theorem C60_setseq_refuted : exists v b v' b',
  unmarshal env0 doc_merges = Ok (v, None) /\ marshal_opt env0 world1 opt_set v = Ok b /\
  unmarshal env0 b = Ok (v', None) /\ marshal_opt env0 world1 opt_set v' = Ok b' /\ b <> b'.
Proof. exact merges. Qed.
Print Assumptions C60_setseq_refuted.

(** Exactly then: replacing what is not UTF-8 keeps the order of the names in
    every object.  [W] and [W'] may order maps differently in the two calls. *)
Theorem C60_sorted_exactly : forall (E : Env) (W W' : World) (o : opt) (v : V),
  o_omit_null o = false -> opt_ws o -> json_typed v -> all_text (Forall is_byte) (fun _ src => lax_num src) v ->
  o_less o = Some default_string_sequence ->
  exists b v', marshal_opt E W o v = Ok b /\ unmarshal E b = Ok (v', None) /\
    (marshal_opt E W' o v' = Ok b <-> all_objs (order_kept blt) v).
Proof. exact canon_sorted. Qed.
Print Assumptions C60_sorted_exactly.

Theorem C60_keyseq_exactly : forall (E : Env) (W W' : World) (o : opt) (v : V),
  o_omit_null o = false -> opt_ws o -> json_typed v -> all_text (Forall is_byte) (fun _ src => lax_num src) v ->
  o_less o = None -> o_keyseq o <> [] ->
  exists b v', marshal_opt E W o v = Ok b /\ unmarshal E b = Ok (v', None) /\
    (marshal_opt E W' o v' = Ok b <-> all_objs (order_kept (seq_before (o_keyseq o))) v).
Proof. exact canon_keyseq. Qed.
Print Assumptions C60_keyseq_exactly.

(** In the order of setting: exactly if no two names of an object are replaced
    by the same name. *)
Theorem C60_setseq_exactly : forall (E : Env) (W W' : World) (o : opt) (v : V),
  o_omit_null o = false -> opt_ws o -> json_typed v -> all_text (Forall is_byte) (fun _ src => lax_num src) v ->
  o_less o = None -> o_keyseq o = [] -> o_setseq o = true ->
  all_objs (fun kvs => NoDup (map (fun x => fst (snd x)) kvs)) v ->
  (forall b, marshal_opt E W o v = Ok b -> Z.of_nat (List.length b) < two32) ->
  exists b v', marshal_opt E W o v = Ok b /\ unmarshal E b = Ok (v', None) /\
    (marshal_opt E W' o v' = Ok b <-> all_objs names_distinct v).
Proof. exact canon_setseq. Qed.
Print Assumptions C60_setseq_exactly.

(** What the second call of Marshal writes is always reproduced. *)
Theorem C60_sorted_twice : forall (E : Env) (W W' : World) (o : opt) (v : V),
  o_omit_null o = false -> opt_ws o -> json_typed v -> all_text (Forall is_byte) (fun _ src => lax_num src) v ->
  forall W'' : World, o_less o = Some default_string_sequence ->
  exists b v' b' v'',
    marshal_opt E W o v = Ok b /\ unmarshal E b = Ok (v', None) /\
    marshal_opt E W' o v' = Ok b' /\ unmarshal E b' = Ok (v'', None) /\ marshal_opt E W'' o v'' = Ok b'.
Proof. exact passes_sorted. Qed.
Print Assumptions C60_sorted_twice.

Theorem C60_keyseq_twice : forall (E : Env) (W W' : World) (o : opt) (v : V),
  o_omit_null o = false -> opt_ws o -> json_typed v -> all_text (Forall is_byte) (fun _ src => lax_num src) v ->
  forall W'' : World, o_less o = None -> o_keyseq o <> [] ->
  exists b v' b' v'',
    marshal_opt E W o v = Ok b /\ unmarshal E b = Ok (v', None) /\
    marshal_opt E W' o v' = Ok b' /\ unmarshal E b' = Ok (v'', None) /\ marshal_opt E W'' o v'' = Ok b'.
Proof. exact passes_keyseq. Qed.
Print Assumptions C60_keyseq_twice.

Theorem C60_setseq_twice : forall (E : Env) (W W' : World) (o : opt) (v : V),
  o_omit_null o = false -> opt_ws o -> json_typed v -> all_text (Forall is_byte) (fun _ src => lax_num src) v ->
  forall W'' : World, o_less o = None -> o_keyseq o = [] -> o_setseq o = true ->
  all_objs (fun kvs => NoDup (map (fun x => fst (snd x)) kvs)) v ->
  (forall b, marshal_opt E W o v = Ok b -> Z.of_nat (List.length b) < two32) ->
  exists b v', marshal_opt E W o v = Ok b /\ unmarshal E b = Ok (v', None) /\
    forall b', marshal_opt E W' o v' = Ok b' -> Z.of_nat (List.length b') < two32 ->
    exists v'', unmarshal E b' = Ok (v'', None) /\ marshal_opt E W'' o v'' = Ok b'.
Proof. exact passes_setseq. Qed.
Print Assumptions C60_setseq_twice.

(** A value for which the guards hold: the string that is not UTF-8 does not
    matter, and the output is reproduced. *)
Example C60_instance : exists v v', unmarshal env0 doc_plain = Ok (v, None) /\
  marshal_opt env0 world2 opt_sorted v = Ok out_plain /\ unmarshal env0 out_plain = Ok (v', None) /\
  marshal_opt env0 world1 opt_sorted v' = Ok out_plain.
Proof.
  destruct (unmarshal env0 doc_plain) as [[v [e|]]| | |] eqn:E1; vm_compute in E1; try discriminate.
  destruct (unmarshal env0 out_plain) as [[v' [e|]]| | |] eqn:E2; vm_compute in E2; try discriminate.
  exists v, v'. split; [reflexivity|]. injection E1 as <-. injection E2 as <-. repeat split; vm_compute; reflexivity.
Qed.
