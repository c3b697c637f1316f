(** Texts that parsing and Marshal with OmitNull reproduce (C60). *)
From Verif Require Import Base Utf8 Float64 Value Scan Unmarshal Opt Marshal
  SpecJson SpecValue SpecLax SpecText SpecOrder SpecOpts SpecCanon SpecOmit ExampleWorld OmitCanonProof.

Definition opt_drop : opt := combine_options opt0 [OOmitNull true; OLess (Some default_string_sequence)].
Definition opt_drop_lines : opt := combine_options opt0 [OOmitNull true; OLess (Some default_string_sequence); OIndent [] (bs "  ")].
Definition doc_between : bytes := bs "{""a"":1,""b"":null,""c"":2}".

(** With OmitNull what Marshal wrote is not always reproduced, even where all
    names are UTF-8: the comma lost at a null between two members is written the
    second time, ... *)
Theorem C60_omit_refuted : exists v b v' b',
  unmarshal env0 doc_between = Ok (v, None) /\ marshal_opt env0 world1 opt_drop v = Ok b /\
  unmarshal env0 b = Ok (v', None) /\ marshal_opt env0 world1 opt_drop v' = Ok b' /\ b <> b'.
Proof.
  destruct (unmarshal env0 doc_between) as [[v [e|]]| | |] eqn:E1; vm_compute in E1; try discriminate. injection E1 as <-.
  eexists _, _, _, _. split; [reflexivity|]. split; [vm_compute; reflexivity|]. split; [vm_compute; reflexivity|]. split; [vm_compute; reflexivity|].
  discriminate.
Qed.
Print Assumptions C60_omit_refuted.

(** ... and an indented object with nothing but nulls gets a line break the first
    time and none the second time. *)
Theorem C60_omit_lines_refuted : exists v v',
  unmarshal env0 (bs "{""a"":null}") = Ok (v, None) /\ marshal_opt env0 world1 opt_drop_lines v = Ok [123; 10; 125] /\
  unmarshal env0 [123; 10; 125] = Ok (v', None) /\ marshal_opt env0 world1 opt_drop_lines v' = Ok [123; 125].
Proof.
  destruct (unmarshal env0 (bs "{""a"":null}")) as [[v [e|]]| | |] eqn:E1; vm_compute in E1; try discriminate. injection E1 as <-.
  eexists _, _. split; [reflexivity|]. split; [vm_compute; reflexivity|]. split; [vm_compute; reflexivity|]. vm_compute; reflexivity.
Qed.
Print Assumptions C60_omit_lines_refuted.

(** Exactly then: OmitNull wrote what Marshal without it writes for the value
    with its null members deleted, and replacing what is not UTF-8 keeps the order
    of the remaining names in every object. *)
Theorem C60_omit_sorted_exactly : forall (E : Env) (W W' : World) (o : opt) (v : V),
  o_omit_null o = true -> opt_ws o -> json_typed v -> all_text (Forall is_byte) (fun _ src => lax_num src) v ->
  o_less o = Some default_string_sequence ->
  exists b v', marshal_opt E W o v = Ok b /\ unmarshal E b = Ok (v', None) /\
    (marshal_opt E W' o v' = Ok b <->
     marshal_opt E W (with_nulls o) (without_nulls v) = Ok b /\ all_objs (order_kept blt) (without_nulls v)).
Proof. exact omit_sorted_exact. Qed.
Print Assumptions C60_omit_sorted_exactly.

Theorem C60_omit_keyseq_exactly : forall (E : Env) (W W' : World) (o : opt) (v : V),
  o_omit_null o = true -> opt_ws o -> json_typed v -> all_text (Forall is_byte) (fun _ src => lax_num src) v ->
  o_less o = None -> o_keyseq o <> [] ->
  exists b v', marshal_opt E W o v = Ok b /\ unmarshal E b = Ok (v', None) /\
    (marshal_opt E W' o v' = Ok b <->
     marshal_opt E W (with_nulls o) (without_nulls v) = Ok b /\
     all_objs (order_kept (seq_before (o_keyseq o))) (without_nulls v)).
Proof. exact omit_keyseq_exact. Qed.
Print Assumptions C60_omit_keyseq_exactly.

Theorem C60_omit_setseq_exactly : forall (E : Env) (W W' : World) (o : opt) (v : V),
  o_omit_null o = true -> opt_ws o -> json_typed v -> all_text (Forall is_byte) (fun _ src => lax_num src) v ->
  o_less o = None -> o_keyseq o = [] -> o_setseq o = true ->
  all_objs (fun kvs => NoDup (map (fun x => fst (snd x)) kvs)) v ->
  (forall b, marshal_opt E W o v = Ok b -> Z.of_nat (List.length b) < two32) ->
  (forall b, marshal_opt E W (with_nulls o) (without_nulls v) = Ok b -> Z.of_nat (List.length b) < two32) ->
  exists b v', marshal_opt E W o v = Ok b /\ unmarshal E b = Ok (v', None) /\
    (marshal_opt E W' o v' = Ok b <->
     marshal_opt E W (with_nulls o) (without_nulls v) = Ok b /\ all_objs names_distinct (without_nulls v)).
Proof. exact omit_setseq_exact. Qed.
Print Assumptions C60_omit_setseq_exactly.

(** What the second call of Marshal writes is always reproduced, and no member
    that it read is null. *)
Theorem C60_omit_sorted_twice : forall (E : Env) (W W' W'' : World) (o : opt) (v : V),
  o_omit_null o = true -> opt_ws o -> json_typed v -> all_text (Forall is_byte) (fun _ src => lax_num src) v ->
  o_less o = Some default_string_sequence ->
  exists b v' b' v'',
    marshal_opt E W o v = Ok b /\ unmarshal E b = Ok (v', None) /\
    marshal_opt E W' o v' = Ok b' /\ unmarshal E b' = Ok (v'', None) /\ marshal_opt E W'' o v'' = Ok b' /\
    all_objs (fun kvs => Forall (fun x => snd (snd x) <> VNull) kvs) v'.
Proof. exact omit_sorted_twice. Qed.
Print Assumptions C60_omit_sorted_twice.

Theorem C60_omit_keyseq_twice : forall (E : Env) (W W' W'' : World) (o : opt) (v : V),
  o_omit_null o = true -> opt_ws o -> json_typed v -> all_text (Forall is_byte) (fun _ src => lax_num src) v ->
  o_less o = None -> o_keyseq o <> [] ->
  exists b v' b' v'',
    marshal_opt E W o v = Ok b /\ unmarshal E b = Ok (v', None) /\
    marshal_opt E W' o v' = Ok b' /\ unmarshal E b' = Ok (v'', None) /\ marshal_opt E W'' o v'' = Ok b' /\
    all_objs (fun kvs => Forall (fun x => snd (snd x) <> VNull) kvs) v'.
Proof. exact omit_keyseq_twice. Qed.
Print Assumptions C60_omit_keyseq_twice.

Theorem C60_omit_setseq_twice : forall (E : Env) (W W' W'' : World) (o : opt) (v : V),
  o_omit_null o = true -> opt_ws o -> json_typed v -> all_text (Forall is_byte) (fun _ src => lax_num src) v ->
  o_less o = None -> o_keyseq o = [] -> o_setseq o = true ->
  (forall b, marshal_opt E W o v = Ok b -> Z.of_nat (List.length b) < two32) ->
  exists b v', marshal_opt E W o v = Ok b /\ unmarshal E b = Ok (v', None) /\
    all_objs (fun kvs => Forall (fun x => snd (snd x) <> VNull) kvs) v' /\
    forall b', marshal_opt E W' o v' = Ok b' -> Z.of_nat (List.length b') < two32 ->
    exists v'', unmarshal E b' = Ok (v'', None) /\ marshal_opt E W'' o v'' = Ok b'.
Proof. exact omit_setseq_twice. Qed.
Print Assumptions C60_omit_setseq_twice.

(** A value that is reproduced: its nulls come last. *)
Example C60_omit_instance :
  let v := VObj 2 [(bs "z", (0, VNull)); (bs "a", (1, VArr [VNull; VObj 1 [(bs "n", (0, VNull))] None]))] None in
  let b := bs "{""a"":[null,{}]}" in
  marshal_opt env0 world1 opt_drop v = Ok b /\
  marshal_opt env0 world1 (with_nulls opt_drop) (without_nulls v) = Ok b /\
  without_nulls v = VObj 2 [(bs "a", (1, VArr [VNull; VObj 1 [] None]))] None /\
  exists v', unmarshal env0 b = Ok (v', None) /\ marshal_opt env0 world2 opt_drop v' = Ok b.
Proof.
  cbv zeta. split; [vm_compute; reflexivity|]. split; [vm_compute; reflexivity|]. split; [vm_compute; reflexivity|].
  eexists. split; [vm_compute; reflexivity|]. vm_compute; reflexivity.
Qed.
