(** Properties of the accepted language (C09, C11) and of number texts (C10). *)
From Verif Require Import Base Float64 Value Scan Unmarshal Opt Marshal SpecJson SpecValue SpecLax SpecText SpecOpts
  RoundTrip NumFacts MarshalClaims LaxClaims LaxFacts ExampleWorld.

(** C11 is false: a text that is no JSON is accepted. *)
Theorem C11_refuted : exists b, Forall is_byte b /\
  (forall E, exists v, unmarshal E b = Ok (v, None)) /\ forall j, ~ json_doc b j.
Proof. exact not_only_json. Qed.
Print Assumptions C11_refuted.

(** What is accepted instead: exactly the texts of the lax grammar (SpecLax.v),
    and the value is the tree that the grammar assigns. *)
Theorem C11_accepted_language : forall (E : Env) (b : bytes), Forall is_byte b ->
  (forall v, unmarshal E b = Ok (v, None) -> exists j, lax_doc b j /\ tree_of lax_value j v) /\
  (forall j, lax_doc b j -> exists v, unmarshal E b = Ok (v, None) /\ tree_of lax_value j v).
Proof. exact accepted_language. Qed.
Print Assumptions C11_accepted_language.

Example C11_more : Forall (fun b => forall E, exists v, unmarshal E b = Ok (v, None))
  [ bs "[,,1]"; bs "{""a"":1 ""b"":2}"; 8 :: bs "null"; bs """\'"""; 34 :: 10 :: [34]; 34 :: 195 :: 97 :: [34];
    bs "-01"; bs "-.5"; bs "01.5" ].
Proof. exact accepted_examples. Qed.
Example C11_rejected : forall E, exists e, unmarshal E (bs "{""a"" 1}") = Ok (VNotExist, Some e).
Proof. intros E. eexists. vm_compute. reflexivity. Qed.

(** C09 is false: an integer literal that does not fit is accepted with another
    value. *)
Theorem C09_refuted : exists lit, int_part lit /\ two64 <= digits_val lit /\
  forall E, exists n, unmarshal E lit = Ok (VNum n lit, None) /\ n_flt n = false /\ n_u64 n <> digits_val lit.
Proof. exact int_wrap. Qed.
Print Assumptions C09_refuted.

(** C09 for literals that fit, anywhere in any document ([int_content],
    SpecText.v); a literal that does not fit has exactly 20 digits and no sign.
    Missing: rejection of those 20-digit literals (false, see above). *)
Theorem C09_int_exact_partial : forall (E : Env) (b : bytes) (v : V),
  Forall is_byte b -> unmarshal E b = Ok (v, None) -> all_text (fun _ => True) int_content v.
Proof. exact parsed_ints. Qed.
Print Assumptions C09_int_exact_partial.

Example C09_instance : forall E,
  unmarshal E (bs "[18446744073709551615,-9223372036854775808]") =
    Ok (VArr [VNum (Num false false (-1) 18446744073709551615 (f_of_Z 18446744073709551615)) (bs "18446744073709551615");
              VNum (Num true false (-9223372036854775808) 9223372036854775808 (f_opp (f_of_Z 9223372036854775808))) (bs "-9223372036854775808")],
        None) /\
  exists e, unmarshal E (bs "18446744073709551616") = Ok (VNotExist, Some e).
Proof. intros E. split; [vm_compute; reflexivity|]. eexists. vm_compute. reflexivity. Qed.

(** C10.  The output for a parsed value is accepted by the grammar as a tree in
    which every number has the text it was read from. *)
Theorem C10_number_text : forall (E : Env) (W : World) (o : opt) (b : bytes) (v : V),
  opt_ws o -> Forall is_byte b -> unmarshal E b = Ok (v, None) ->
  exists b' j, marshal_opt E W o v = Ok b' /\ lax_doc b' j /\ shows num_text (o_omit_null o) any_order v j.
Proof. exact parsed_number_text. Qed.
Print Assumptions C10_number_text.

Example C10_instance : forall E, exists v,
  unmarshal E (bs "{""a"":[1.500, 2E+05]}") = Ok (v, None) /\
  marshal_opt E world1 opt0 v = Ok (bs "{""a"":[1.500,2E+05]}").
Proof. intros E. eexists. split; [vm_compute; reflexivity|]. vm_compute. reflexivity. Qed.
