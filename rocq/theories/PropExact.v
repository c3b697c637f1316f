(** Exactly which JSON texts are accepted and what their numbers become (C02,
    C09, C50). *)
From Verif Require Import Base Float64 Value Scan Unmarshal Access SpecJson SpecText SpecOpts SpecRound SpecLit RoundClaims LitExact ExampleWorld.

(** C02.  A JSON text is accepted exactly if each of its number literals is
    ([lit_accepted], SpecLit.v). *)
Theorem C02_accepted_exactly : forall (E : Env) (b : bytes) (j : jv), Forall is_byte b -> json_doc b j ->
  (exists v, unmarshal E b = Ok (v, None)) <-> all_lits lit_accepted j.
Proof. exact accepted_exactly. Qed.
Print Assumptions C02_accepted_exactly.

(** C09 and C50.  The content of every number of an accepted document that was
    written as JSON allows, without exception ([lit_content], SpecLit.v). *)
Theorem C50_content_exactly : forall (E : Env) (b : bytes) (v : V), Forall is_byte b -> unmarshal E b = Ok (v, None) ->
  all_text (fun _ => True) (fun n src => rfc_lit src -> lit_content src n) v.
Proof. exact parsed_exactly. Qed.
Print Assumptions C50_content_exactly.

(** The same for a document that is one literal. *)
Theorem C09_literal_exactly : forall (E : Env) (lit : bytes) (v : V), rfc_lit lit -> unmarshal E lit = Ok (v, None) ->
  exists n, v = VNum n lit /\ lit_content lit n /\ api_float64 E v = Ok (n_f64 n).
Proof. exact literal_exactly. Qed.
Print Assumptions C09_literal_exactly.

(** An integer of 20 digits that wraps, and a zero whose exponent is cut:
    both accepted.  One of 20 digits that wraps to a smaller one, and a number
    that is too large: both refused. *)
Example C02_exact_instance : lit_accepted (bs "28446744073709551616") /\
  (forall E, exists v, unmarshal E (bs "[28446744073709551616]") = Ok (v, None)) /\
  (exists v, unmarshal env0 (bs "[0e-1234567]") = Ok (v, None)) /\
  (forall E, exists e, unmarshal E (bs "[18446744073709551616]") = Ok (VNotExist, Some e)) /\
  (forall E, exists e, unmarshal E (bs "[1e400]") = Ok (VNotExist, Some e)).
Proof.
  split; [|split; [|split; [|split]]].
  - exists false, (bs "28446744073709551616"), [], 0, true. split; [exact wrap_lit|]. right. split; [reflexivity|].
    apply Z.leb_le. vm_compute. reflexivity.
  - intros E. eexists. vm_compute. reflexivity.
  - eexists. vm_compute. reflexivity.
  - intros E. eexists. vm_compute. reflexivity.
  - intros E. eexists. vm_compute. reflexivity.
Qed.
Example C50_exact_instance : num_lit (bs "0e-1234567") false (bs "0") [] (-1234567) false /\ five (-1234567) (-12345) /\
  exists n, unmarshal env0 (bs "0e-1234567") = Ok (VNum n (bs "0e-1234567"), None) /\ n_f64 n = S754_zero false.
Proof. split; [exact one_lit|]. split; [exact (proj1 (proj2 five_exp))|]. eexists. split; vm_compute; reflexivity. Qed.
