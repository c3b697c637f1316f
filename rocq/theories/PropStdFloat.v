(** Property of the texts of new floats against encoding/json (C59). *)
From Verif Require Import Base Float64 Value SpecRound SpecFloatText SpecStdFloat StdFloatProof.

(** C59: NewFloat64 and NewFloat32 give a finite float the text that encoding/json
    writes ("the format and precision control is the same with encoding/json").
    False for zero. *)
Theorem C59_refuted : exists f s M q, float64 f s M q /\ forall E : Env, letter_contract E ->
  ~ exists t, text_of (new_float64 E f) = Some t /\ std_float64 E f t.
Proof. exact std_zero_never. Qed.
Print Assumptions C59_refuted.

(** 0e+00 instead of 0. *)
Theorem C59_zero : forall E : Env,
  fmt_float E f_zero 101 (-1) 64 = bs "0e+00" -> fmt_float E f_zero 102 (-1) 64 = bs "0" ->
  text_of (new_float64 E f_zero) = Some (bs "0e+00") /\ forall t, std_float64 E f_zero t <-> t = bs "0".
Proof. exact std_zero. Qed.
Print Assumptions C59_zero.

(** Exactly when the texts agree: the number is not zero, and if it is written with
    an exponent, then not with one of the form e-0d, which encoding/json shortens. *)
Theorem C59_float64_exactly : forall (E : Env) f s M q, letter_contract E -> float64 f s M q ->
  ((exists t, text_of (new_float64 E f) = Some t /\ std_float64 E f t) <->
   is_zero f = false /\
   (exponent_form lo64 hi64 f = true -> forall x d, ~ short_exp (fmt_float E f 101 (-1) 64) x d)).
Proof. exact float64_std. Qed.
Print Assumptions C59_float64_exactly.

(** For float32 one more number differs, the float32 nearest to 1e-6 (in either
    sign): the library compares it with 1e-6 as a float64. *)
Theorem C59_float32_exactly : forall (E : Env) f s M q, letter_contract E -> float32 f s M q ->
  ((exists t, text_of (new_float32 E f) = Some t /\ std_float32 E f t) <->
   is_zero f = false /\ f_abs f <> lo32 /\
   (exponent_form lo32 hi32 f = true -> forall x d, ~ short_exp (fmt_float E f 101 (-1) 32) x d)).
Proof. exact float32_std'. Qed.
Print Assumptions C59_float32_exactly.

(** 1e-7, for which strconv writes 1e-07. *)
Example C59_instance : letter_contract (env_two (bs "1e-07") (bs "0.0000001")) /\
  float64 (f_of_dec false 1 (-7)) false 7555786372591432 (-76) /\
  exponent_form lo64 hi64 (f_of_dec false 1 (-7)) = true /\ short_exp (bs "1e-07") (bs "1") 55 /\
  text_of (new_float64 (env_two (bs "1e-07") (bs "0.0000001")) (f_of_dec false 1 (-7))) = Some (bs "1e-07").
Proof. split; [exact two_letters|]. repeat split; vm_compute; try reflexivity; try discriminate. now left. Qed.

(** 1.5 is written alike, and the float32 next to 1e-6 is chosen the other form. *)
Example C59_forms : let plain := f_of_dec false 15 (-1) in
  exponent_form lo64 hi64 plain = false /\ is_zero plain = false /\
  exponent_form lo32 hi32 lo32 = false /\ SFltb (f_abs lo32) lo64 = true.
Proof. vm_compute. repeat split. Qed.
