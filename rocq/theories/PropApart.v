(** C83: different documents have different texts. *)
From Verif Require Import Base Utf8 Float64 Value Scan Unmarshal Opt Marshal Compare SpecJson SpecValue SpecLax SpecText SpecOpts SpecLaws SpecApart
  MarshalClaims ApartProof ApartExamples ExampleWorld.

(** Two values that have a text in common, under whatever options and orders of maps, show the same. *)
Theorem C83_apart : forall (E : Env) (W W' : World) (o o' : opt) v w b,
  opt_ws o -> opt_ws o' -> o_omit_null o = false -> o_omit_null o' = false -> json_typed v -> json_typed w ->
  all_text (Forall is_byte) (fun _ src => lax_num src) v -> all_text (Forall is_byte) (fun _ src => lax_num src) w ->
  marshal_opt E W o v = Ok b -> marshal_opt E W' o' w = Ok b -> same_shown v w.
Proof. exact texts_apart. Qed.
Print Assumptions C83_apart.

(** Parsed JSON, with an order of the names: the texts are the same exactly if the documents are, down to the
    text of each number. *)
Theorem C83_exactly : forall (E : Env) (W W' : World) (o : opt) b1 j1 b2 j2 v w,
  Forall is_byte b1 -> Forall is_byte b2 -> json_doc b1 j1 -> unmarshal E b1 = Ok (v, None) -> json_doc b2 j2 -> unmarshal E b2 = Ok (w, None) ->
  opt_ws o -> o_omit_null o = false -> o_less o = Some default_string_sequence \/ (o_less o = None /\ o_keyseq o <> []) ->
  (marshal_opt E W o v = marshal_opt E W' o w <-> same_doc v w).
Proof. exact texts_exactly. Qed.
Print Assumptions C83_exactly.

(** Parsed JSON documents with a text in common are Equal. *)
Theorem C83_equal : forall (E : Env) (W W' : World) (o o' : opt) b1 j1 b2 j2 v w b,
  Forall is_byte b1 -> Forall is_byte b2 -> json_doc b1 j1 -> unmarshal E b1 = Ok (v, None) -> json_doc b2 j2 -> unmarshal E b2 = Ok (w, None) ->
  opt_ws o -> opt_ws o' -> o_omit_null o = false -> o_omit_null o' = false ->
  marshal_opt E W o v = Ok b -> marshal_opt E W' o' w = Ok b -> forall X path, equal X path v w = true.
Proof. exact texts_equal. Qed.
Print Assumptions C83_equal.

(** Not so for texts that are accepted and not UTF-8: they may differ and be written the same. *)
Theorem C83_refuted : exists b1 b2 v w b, Forall is_byte b1 /\ Forall is_byte b2 /\
  (forall E, unmarshal E b1 = Ok (v, None) /\ unmarshal E b2 = Ok (w, None)) /\
  (forall E W, marshal_opt E W opt0 v = Ok b /\ marshal_opt E W opt0 w = Ok b) /\
  forall W path, equal W path v w = false.
Proof. exact written_alike. Qed.
Print Assumptions C83_refuted.

(** The converse fails: 1.0 and 1 are Equal. *)
Theorem C83_converse_refuted : exists v w, unmarshal env0 (bs "1.0") = Ok (v, None) /\ unmarshal env0 (bs "1") = Ok (w, None) /\
  (forall W path, equal W path v w = true) /\ (forall W, marshal_opt env0 W opt_sorted v <> marshal_opt env0 W opt_sorted w).
Proof. exact equal_apart. Qed.
Print Assumptions C83_converse_refuted.

(** {"a":[1,"x"],"b":null} and the same with the members exchanged and blanks. *)
Example C83_instance : exists v w, unmarshal env0 (bs "{""a"":[1,""x""],""b"":null}") = Ok (v, None) /\
  unmarshal env0 (bs " {""b"" : null, ""a"":[1,""x""] } ") = Ok (w, None) /\ v <> w /\ same_doc v w /\
  forall W W', marshal_opt env0 W opt_sorted v = marshal_opt env0 W' opt_sorted w.
Proof. exact exchanged. Qed.
