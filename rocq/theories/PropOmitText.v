(** C30, second half: OptOmitNull should write the text of the value without its null members ([without_nulls]),
    as Marshal without OptOmitNull ([with_nulls o]) writes it. *)
From Verif Require Import Base Utf8 Float64 Value Scan Unmarshal Pure Opt Marshal SpecJson SpecValue SpecText SpecOpts SpecOrder SpecSpell SpecOmit
  OmitTextProof ExampleWorld.

(** Exactly when it does, for members ordered by name: [v'] is [v] with its members in that order.  In every
    object the members left out stand before or behind the others, and with indentation no object consists of
    members left out. *)
Theorem C30_same_text_sorted : forall (E : Env) (W W' : World) (o : opt) (v : V),
  o_omit_null o = true -> opt_ws o -> json_typed v -> all_text (fun _ => True) (fun _ src => src <> []) v ->
  o_less o = Some default_string_sequence ->
  exists v', rearranged v v' /\ all_objs (by_key blt) v' /\
    (marshal_opt E W o v = marshal_opt E W' (with_nulls o) (without_nulls v) <->
     all_objs (contiguous true) v' /\ (o_indent o = true -> all_objs some_left v')).
Proof. exact same_text_sorted. Qed.
Print Assumptions C30_same_text_sorted.

Theorem C30_same_text_keyseq : forall (E : Env) (W W' : World) (o : opt) (v : V),
  o_omit_null o = true -> opt_ws o -> json_typed v -> all_text (fun _ => True) (fun _ src => src <> []) v ->
  o_less o = None -> o_keyseq o <> [] ->
  exists v', rearranged v v' /\ all_objs (by_key (seq_before (o_keyseq o))) v' /\
    (marshal_opt E W o v = marshal_opt E W' (with_nulls o) (without_nulls v) <->
     all_objs (contiguous true) v' /\ (o_indent o = true -> all_objs some_left v')).
Proof. exact same_text_keyseq. Qed.
Print Assumptions C30_same_text_keyseq.

Theorem C30_same_text_setseq : forall (E : Env) (W W' : World) (o : opt) (v : V),
  o_omit_null o = true -> opt_ws o -> json_typed v -> all_text (fun _ => True) (fun _ src => src <> []) v ->
  o_less o = None -> o_keyseq o = [] -> o_setseq o = true ->
  all_objs (fun kvs => NoDup (map (fun x => fst (snd x)) kvs)) v ->
  exists v', rearranged v v' /\ all_objs by_id v' /\
    (marshal_opt E W o v = marshal_opt E W' (with_nulls o) (without_nulls v) <->
     all_objs (contiguous true) v' /\ (o_indent o = true -> all_objs some_left v')).
Proof. exact same_text_setseq. Qed.
Print Assumptions C30_same_text_setseq.

Definition read (b : bytes) : V := match unmarshal env0 b with Ok (v, _) => v | _ => VNil end.
Definition both (o : list option_) (b : bytes) : res bytes * res bytes :=
  let o := combine_options opt0 (OOmitNull true :: OSetSeq :: o) in
  (marshal_opt env0 world1 o (read b), marshal_opt env0 world2 (with_nulls o) (without_nulls (read b))).
(** Nulls at both ends: the same text. *)
Example C30_same : both [] (bs "{""n"":null,""a"":[null],""b"":{""m"":null},""p"":null}")
  = (Ok (bs "{""a"":[null],""b"":{}}"), Ok (bs "{""a"":[null],""b"":{}}")).
Proof. vm_compute. reflexivity. Qed.
(** A null between two members: a comma less. *)
Example C30_comma : both [] (bs "{""a"":1,""n"":null,""b"":2}") = (Ok (bs "{""a"":1""b"":2}"), Ok (bs "{""a"":1,""b"":2}")).
Proof. vm_compute. reflexivity. Qed.
(** Indented, an object of nulls only: a line more. *)
Example C30_line : both [OIndent [] (bs " ")] (bs "{""n"":null}") = (Ok [123; 10; 125], Ok (bs "{}")).
Proof. vm_compute. reflexivity. Qed.
