(** C81: a parsed document is no bigger than its text. *)
From Verif Require Import Base Float64 Value Unmarshal SpecJson SpecBulk BulkProof ExampleWorld.

(** The strings, names and number texts together are not longer than the text. *)
Theorem C81_content : forall (E : Env) b v, Forall is_byte b -> unmarshal E b = Ok (v, None) -> (content v <= List.length b)%nat.
Proof. exact parsed_content. Qed.
Print Assumptions C81_content.

(** Every four bytes make at most three values (as in [1[1]1]). *)
Theorem C81_values : forall (E : Env) b v, Forall is_byte b -> unmarshal E b = Ok (v, None) -> (4 * values v <= 3 * List.length b + 1)%nat.
Proof. exact parsed_values. Qed.
Print Assumptions C81_values.

(** In JSON every two bytes make at most one value. *)
Theorem C81_json : forall (E : Env) b j v, Forall is_byte b -> json_doc b j -> unmarshal E b = Ok (v, None) ->
  (2 * values v <= List.length b + 1)%nat.
Proof. exact json_parsed_values. Qed.
Print Assumptions C81_json.

Example C81_instance :
  (exists v, unmarshal env0 (bs "{""ab"":[1,""A""],""ab"":""c""}") = Ok (v, None) /\ values v = 2%nat /\ content v = 3%nat) /\
  (exists v, unmarshal env0 (bs "1") = Ok (v, None) /\ values v = 1%nat /\ content v = 1%nat) /\
  (exists v, unmarshal env0 (bs "[1,2,3]") = Ok (v, None) /\ values v = 4%nat /\ content v = 3%nat) /\
  (exists v, unmarshal env0 (bs "[1[1]1]") = Ok (v, None) /\ values v = 5%nat).
Proof. exact bulk_example. Qed.
