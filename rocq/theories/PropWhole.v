(** C79: the integer getters return the whole part of a number, cut towards
    zero, and always a number of their type. *)
From Verif Require Import Base Float64 Value Unmarshal Access SpecJson SpecLax SpecText SpecGet SpecWhole WholeProof ExampleWorld.

(** Every number of a parsed document. *)
Theorem C79_parsed E b v : Forall is_byte b -> unmarshal E b = Ok (v, None) ->
  all_text (fun _ => True) (fun n lit =>
    let v := VNum n lit in getters_typed E v /\ api_float64 E v = Ok (n_f64 n) /\
    forall z, writes_int lit z \/ (~ int_lit lit /\ whole (n_f64 n) z) -> getters_give E v z) v.
Proof. exact (parsed_whole E b v). Qed.
Print Assumptions C79_parsed.

(** Every string that spells a number. *)
Theorem C79_string E s lit : spells s lit ->
  getters_typed E (VStr s) /\
  exists f, api_float64 E (VStr s) = Ok f /\
    forall z, writes_int lit z \/ (~ int_lit lit /\ whole f z) -> getters_give E (VStr s) z.
Proof. exact (string_whole E s lit). Qed.
Print Assumptions C79_string.

(** NewFloat64, NewFloat64f, NewFloat32, NewFloat32f and what is built on them. *)
Theorem C79_made E f format prec bits : let v := new_float64f_ E f format prec bits in
  getters_typed E v /\ api_float64 E v = Ok f /\ forall z, whole f z -> getters_give E v z.
Proof. exact (float_whole E f format prec bits). Qed.
Print Assumptions C79_made.

(** Every finite float has exactly one whole part. *)
Theorem C79_whole f : (exists s m e, f = S754_finite s m e) \/ (exists s, f = S754_zero s) ->
  exists z, whole f z /\ forall z', whole f z' -> z' = z.
Proof. exact (whole_one f). Qed.
Print Assumptions C79_whole.

(** The whole part is that of the float, not that of the literal: the whole
    part of 0.99999999999999999999 is 0, Int() is 1. *)
Theorem C79_literal_refuted : exists lit : bytes,
  lit = bs "0.99999999999999999999" /\ (* 0 <= value < 1 *)
  forall E, exists n, unmarshal E lit = Ok (VNum n lit, None) /\ api_int E (VNum n lit) = Ok 1.
Proof. exact literal_rounded. Qed.
Print Assumptions C79_literal_refuted.

Example C79_instance :
  (exists n, unmarshal env0 (bs "-2.75e1") = Ok (VNum n (bs "-2.75e1"), None) /\ whole (n_f64 n) (-27) /\
    api_int32 env0 (VNum n (bs "-2.75e1")) = Ok (-27)) /\
  api_uint32 env0 (VStr (bs " 3.999 ")) = Ok 3 /\
  api_int64 env0 (VStr (bs "-9223372036854775808")) = Ok (- 2 ^ 63) /\
  ~ whole (f_of_dec true 275 (-1)) (-28) /\ whole (f_of_dec true 9 (-1)) 0.
Proof. exact whole_example. Qed.
