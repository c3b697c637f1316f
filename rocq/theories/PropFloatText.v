(** Property of floats written and read back (C55). *)
From Verif Require Import Base Float64 Value Unmarshal Access Opt Marshal SpecJson SpecRound SpecFloatText ExactFormat ShortText ExampleWorld.

(** C55 is false: a finite float64 does not survive NewFloat64, Marshal,
    Unmarshal and Float64. *)
Theorem C55_refuted : exists f s M q, float64 f s M q /\
  forall (E : Env) (W : World) (o : opt), format_contract E -> ~ survives E W o f.
Proof. exact a_float_is_lost. Qed.
Print Assumptions C55_refuted.

(** Exactly which ones are lost, given the documented contract of
    strconv.FormatFloat: those above 2^64 resp. below -2^63 that are smaller
    than 10^21 in magnitude ([too_wide]).  Missing: the two numbers 2^64 and
    -2^63, for which the contract leaves open on which side of the limit the
    written integer lies; see [C55_survives]. *)
Theorem C55_survives_partial : forall (E : Env) (W : World) (o : opt) f s M q,
  format_contract E -> float64 f s M q -> ~ at_limit s M q ->
  (survives E W o f <-> ~ too_wide s M q).
Proof. exact survives_iff. Qed.
Print Assumptions C55_survives_partial.

(** The contract can be met: by writing all decimal places. *)
Theorem C55_contract : format_contract env_exact.
Proof. exact exact_contract. Qed.
Print Assumptions C55_contract.

(** With the rest of the contract, that the text has the fewest digits and is
    the closest of these, all finite floats are decided: 2^64 and -2^63 are
    lost too. *)
Theorem C55_survives : forall (E : Env) (W : World) (o : opt) f s M q,
  format_contract E -> shortest_at_limit E -> float64 f s M q ->
  (survives E W o f <-> ~ too_wide s M q /\ ~ at_limit s M q).
Proof. exact survives_exactly. Qed.
Print Assumptions C55_survives.

(** Both contracts can be met together. *)
Theorem C55_both_contracts : format_contract env_short /\ shortest_at_limit env_short.
Proof. exact (conj short_contract short_short). Qed.
Print Assumptions C55_both_contracts.

(** The two borders: both texts are refused. *)
Example C55_borders :
  short_way (f_of_Z (- 9223372036854775808)) = Ok (bs "-9223372036854776000", None) /\
  short_way (f_of_Z 18446744073709551616) = Ok (bs "18446744073709552000", None).
Proof. vm_compute. repeat split. Qed.

(** Floats on the way ([way]: text and float).  -0.75, -0 and 3 * 2^70
    are read back; 3e19 is read back as another
    number, 2e19 and 1e20 are refused. *)
Example C55_instance :
  way (S754_finite true 6755399441055744 (-53)) =
    Ok (bs "-0.75000000000000000000000000000000000000000000000000000", Some (S754_finite true 6755399441055744 (-53))) /\
  way (S754_zero true) = Ok (bs "-0e-1074", Some (S754_zero true)) /\
  way (S754_finite false 6755399441055744 19) = Ok (bs "3.541774862152233910272e21", Some (S754_finite false 6755399441055744 19)) /\
  way (S754_finite false 7324218750000000 12) = Ok (bs "30000000000000000000", Some (f_of_Z 11553255926290448384)) /\
  way (f_of_Z 20000000000000000000) = Ok (bs "20000000000000000000", None) /\
  way (f_of_Z 100000000000000000000) = Ok (bs "100000000000000000000", None).
Proof. vm_compute. repeat split. Qed.
