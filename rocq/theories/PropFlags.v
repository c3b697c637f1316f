(** The predicates of numbers, for every number (C41). *)
From Verif Require Import Base Float64 Value Scan Unmarshal Access SpecJson SpecText SpecGet SpecFlags FlagsExact.

(** Parsed numbers.  Of an integer literal without sign the value modulo 2^64
    decides; a literal with fraction or exponent is judged by the binary64
    number it was rounded to, up to 2^64 (above, Go leaves the conversion
    open). *)
Theorem C41_parsed_exactly : forall (E : Env) (b : bytes) (v : V), Forall is_byte b -> unmarshal E b = Ok (v, None) ->
  all_text (fun _ => True) (fun n lit =>
    let v := VNum n lit in
    (digits lit -> greater_than_int64_max v = Ok (2 ^ 63 <=? digits_val lit mod 2 ^ 64)) /\
    (~ int_lit lit ->
      (exists g, api_is_negative v = Ok g /\ (g = true <-> below_zero (n_f64 n))) /\
      (~ at_least (n_f64 n) (2 ^ 64) -> exists g, greater_than_int64_max v = Ok g /\ (g = true <-> at_least (n_f64 n) (2 ^ 63))))) v.
Proof. exact parsed_flags. Qed.
Print Assumptions C41_parsed_exactly.

(** Numbers made of floats (NewFloat64, NewFloat64f, NewFloat32): always called
    integers. *)
Theorem C41_float_exactly : forall (E : Env) (f : spec_float) (format prec bits : Z),
  let v := new_float64f_ E f format prec bits in
  api_is_integer v = Ok true /\ api_is_float v = Ok false /\
  (exists g, api_is_negative v = Ok g /\ (g = true <-> below_zero f)) /\
  (~ at_least f (2 ^ 64) -> f <> S754_nan -> exists g, greater_than_int64_max v = Ok g /\ (g = true <-> at_least f (2 ^ 63))).
Proof. exact float_flags. Qed.
Print Assumptions C41_float_exactly.

Example C41_exact_instance : forall E,
  api_is_integer (new_float64 E (f_of_dec false 15 (-1))) = Ok true /\
  at_least (f_of_dec false 95 17) (2 ^ 63) /\ ~ at_least (f_of_dec false 95 17) (2 ^ 64) /\
  greater_than_int64_max (new_float64 E (f_of_dec false 95 17)) = Ok true /\
  below_zero (f_of_dec true 1 (-3)) /\ ~ below_zero (S754_zero true).
Proof. exact flags_example. Qed.
