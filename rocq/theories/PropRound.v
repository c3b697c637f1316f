(** Property of the numbers in a document as floats (C50). *)
From Verif Require Import Base Float64 Value Scan Unmarshal Access SpecJson SpecText SpecRound RoundClaims ExampleWorld.

(** C50 is false: a number literal is accepted whose Float64 is not the
    binary64 number nearest to it. *)
Theorem C50_refuted : exists lit neg ip fd e i, num_lit lit neg ip fd e i /\
  forall E, exists v f, unmarshal E lit = Ok (v, None) /\ api_float64 E v = Ok f /\ ~ lit_nearest neg ip fd e f.
Proof. exact not_nearest. Qed.
Print Assumptions C50_refuted.

(** C50 for all literals but integers from 2^64 on and exponents from 100000
    on ([lit_small]): Float64 of the accepted literal is the nearest binary64
    number, ties going to the even one. *)
Theorem C50_nearest_partial : forall (E : Env) lit neg ip fd e i v,
  num_lit lit neg ip fd e i -> lit_small neg ip e i -> unmarshal E lit = Ok (v, None) ->
  exists f, api_float64 E v = Ok f /\ lit_nearest neg ip fd e f.
Proof. exact literal_float64. Qed.
Print Assumptions C50_nearest_partial.

(** The same anywhere in any document ([float_content], SpecRound.v). *)
Theorem C50_document_partial : forall (E : Env) (b : bytes) (v : V),
  Forall is_byte b -> unmarshal E b = Ok (v, None) -> all_text (fun _ => True) float_content v.
Proof. exact parsed_floats. Qed.
Print Assumptions C50_document_partial.

(** A literal with fraction or exponent is refused exactly if it is too large
    for binary64.  Missing: literals whose exponent is 100000 or more, and
    those in which a zero follows integer digits that are a multiple of 2^64
    ([no_wrap]), which are refused. *)
Theorem C50_range_partial : forall (E : Env) lit neg ip fd e,
  num_lit lit neg ip fd e false -> Z.abs e <= 99999 -> no_wrap ip ->
  (exists v, unmarshal E lit = Ok (v, None)) <-> ~ lit_overflows ip fd e.
Proof. exact literal_range. Qed.
Print Assumptions C50_range_partial.

(** 0.1; a tie between two integers; a tie between 0 and the least positive
    number; the last number that does not overflow. *)
Example C50_instance : exists v,
  unmarshal env0 (bs "[0.1,9007199254740993,-9007199254740995,5e-324,-2.4e-324,1.7976931348623158e308]") = Ok (v, None) /\
  match v with
  | VArr l => map (fun x => match x with VNum n _ => parts (n_f64 n) | _ => None end) l
  | _ => []
  end = [Some (false, 7205759403792794, -56); Some (false, 4503599627370496, 1); Some (true, 4503599627370498, 1);
         Some (false, 1, -1074); Some (true, 0, -1074); Some (false, 9007199254740991, 971)].
Proof. eexists. split; vm_compute; reflexivity. Qed.
Example C50_too_large : forall E, exists e, unmarshal E (bs "1.7976931348623159e308") = Ok (VNotExist, Some e).
Proof. intros E. eexists. vm_compute. reflexivity. Qed.
