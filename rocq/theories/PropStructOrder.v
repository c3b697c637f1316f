(** The order in which Import sets the members of structs (C78). *)
From Verif Require Import Base Utf8 Float64 Value Scan Unmarshal Opt Marshal Access Path Edit Iter GoValue Import SpecJson SpecText SpecOrder SpecHistory
  SpecValue SpecPath SpecImport SpecParts SpecOpts SpecSeq StructOrder ExampleWorld ExampleImport ExampleParts.
Local Open Scope Z_scope.

(** A struct: the members of the fields one after the other; of several with one
    name the last stays, in its place. *)
Theorem C78_struct : forall (E : Env) (W : World) (d : opt) opts fs vs, embeds_distinct fs ->
  Forall2 (fun e v => import E W d opts (GStruct [e]) = Ok (v, None)) fs vs -> Z.of_nat (counts vs) < two32 ->
  exists ess v, Forall2 in_set_order vs ess /\ import E W d opts (GStruct fs) = Ok (v, None) /\
    in_set_order v (SpecOrder.last_wins (List.concat ess)) /\
    set_history E (counts vs) v (map fst (SpecOrder.last_wins (List.concat ess))).
Proof. exact struct_sequence. Qed.
Print Assumptions C78_struct.

(** Fields that are not embedded: the members stand in the order of declaration. *)
Theorem C78_declared : forall (E : Env) (W : World) (d : opt) o fs keys v,
  Forall2 (fun e key => exists opts, plain_field (fst e) key opts) fs keys ->
  NoDup keys -> Z.of_nat (List.length fs) < two32 -> import E W d o (GStruct fs) = Ok (v, None) ->
  exists es n, in_set_order v es /\ left_of (map fst es) keys /\ (forall k x, In (k, x) es <-> member v k x) /\
    set_history E n v (map fst es) /\ Z.of_nat n < two32.
Proof. exact plain_sequence. Qed.
Print Assumptions C78_declared.

(** An embedded struct: the order of its own fields. *)
Theorem C78_embedded : forall (E : Env) (W : World) (d : opt) o f g gs w es, embedded_field f -> struct_of g = Some gs ->
  import E W d o (GStruct gs) = Ok (w, None) -> in_set_order w es -> Z.of_nat (member_count w) < two32 ->
  exists v, import E W d o (GStruct [(f, g)]) = Ok (v, None) /\ in_set_order v es.
Proof. exact embedded_sequence. Qed.
Print Assumptions C78_embedded.

(** The order of encoding/json, for data that Import treats alike. *)
Theorem C78_encoding_json : forall (E : Env) (W : World) (d : opt),
  (forall f fmt bits, fmt_float E f fmt (-1) bits <> []) -> forall o fs ms,
  alike (o_ignore_omitempty (combine_options d o)) (GStruct fs) ->
  enc (o_ignore_omitempty (combine_options d o)) (GStruct fs) (TObj ms) -> distinct_names (GStruct fs) ->
  Z.of_nat (List.length ms) < two32 ->
  exists v es, import E W d o (GStruct fs) = Ok (v, None) /\ in_set_order v es /\ map fst es = map fst ms.
Proof. exact json_sequence. Qed.
Print Assumptions C78_encoding_json.

(** Marshal with OptSetSequence keeps to that order at every depth. *)
Theorem C78_text : forall (E : Env) (W : World) (d o : opt) opts n g v, (forall x, contains_value g x -> history E n x) ->
  (forall b, contains_text E W d g b -> Forall is_byte b) -> import E W d opts g = Ok (v, None) ->
  Z.of_nat (n + data_size E W d g) < two32 ->
  opt_ws o -> o_omit_null o = false -> json_typed v -> all_text str_ok (fun _ src => rfc_lit src) v ->
  o_less o = None -> o_keyseq o = [] -> o_setseq o = true ->
  exists b j, marshal_opt E W o v = Ok b /\ json_doc b j /\ sequenced v j.
Proof. exact import_text. Qed.
Print Assumptions C78_text.

(** struct { Z int "z"; E struct { Y, X bool }; B *struct { P bool; A int }; C int "c,omitempty"; X int } with X of E
    hidden by the later X. *)
Definition ex78 : gov := GStruct
  [(fld "Z" "z", GInt 1); (emb "E" "" true, GStruct [(fld "Y" "", GBool true); (fld "X" "", GBool true)]);
   (fld "B" "", GPtr (Some (GStruct [(fld "P" "", GBool false); (fld "A" "", GInt 2)])));
   (fld "C" "c,omitempty", GInt 0); (fld "X" "", GInt 3)].
Example C78_instance :
  (let* (v, e) := import env0 world1 opt0 [] ex78 in marshal env0 world2 opt0 [OSetSeq] v) =
    Ok (bs "{""z"":1,""Y"":true,""B"":{""P"":false,""A"":2},""X"":3}") /\
  (let* (v, e) := import env0 world2 opt0 [OIgnoreOmitempty] ex78 in marshal env0 world1 opt0 [OSetSeq] v) =
    Ok (bs "{""z"":1,""Y"":true,""B"":{""P"":false,""A"":2},""c"":0,""X"":3}").
Proof. split; reflexivity. Qed.
