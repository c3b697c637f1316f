(** Rounding of decimal numbers to binary64, as in IEEE 754: nearest, ties to
    even, overflow. *)
From Verif Require Import Base Float64 Value SpecJson.

(** The magnitudes of finite binary64 numbers: M * 2^q. *)
Definition binary64 (M q : Z) : Prop := 0 <= M < 2 ^ 53 /\ -1074 <= q <= 971.

(** The form in which the last bit of M is the last bit of the number: normal
    or subnormal. *)
Definition normal_form (M q : Z) : Prop := 2 ^ 52 <= M \/ q = -1074.

(** All of them are multiples of 2^-1074: a number counted in this unit. *)
Definition units (neg : bool) (M q : Z) : Z := (if neg then -1 else 1) * M * 2 ^ (q + 1074).

(** The decimal number +-m * 10^e in this unit, as a fraction. *)
Definition top (neg : bool) (m e : Z) : Z := (if neg then -1 else 1) * m * 10 ^ Z.max e 0 * 2 ^ 1074.
Definition bottom (e : Z) : Z := 10 ^ Z.max (- e) 0.

(** Its distance from [u] units, times the denominator. *)
Definition distance (neg : bool) (m e u : Z) : Z := Z.abs (top neg m e - u * bottom e).

(** Sign, magnitude and exponent of a float. *)
Definition parts (f : spec_float) : option (bool * Z * Z) :=
  match f with
  | S754_zero s => Some (s, 0, -1074)
  | S754_finite s M q => Some (s, Z.pos M, q)
  | _ => None
  end.

(** [f] is the binary64 number nearest to +-m * 10^e, and if two are equally
    near then the one whose last bit is 0.  The sign is kept, also on zero. *)
Definition nearest (neg : bool) (m e : Z) (f : spec_float) : Prop :=
  exists M q, parts f = Some (neg, M, q) /\ binary64 M q /\ normal_form M q /\
    forall s M' q', binary64 M' q' ->
      distance neg m e (units neg M q) <= distance neg m e (units s M' q') /\
      (distance neg m e (units neg M q) = distance neg m e (units s M' q') ->
       units neg M q = units s M' q' \/ Z.even M = true).

(** m * 10^e lies half a unit in the last place above the largest finite
    number, or higher. *)
Definition overflows (m e : Z) : Prop := (2 ^ 54 - 1) * 2 ^ 970 * 2 ^ 1074 * bottom e <= top false m e.

(** [f] is what the literal with sign [neg], integer digits [ip], fraction
    digits [fd] and exponent [e] is rounded to; and whether it is too large. *)
Definition lit_nearest (neg : bool) (ip fd : bytes) (e : Z) (f : spec_float) : Prop :=
  nearest neg (digits_val (ip ++ fd)) (e - Z.of_nat (List.length fd)) f.
Definition lit_overflows (ip fd : bytes) (e : Z) : Prop :=
  overflows (digits_val (ip ++ fd)) (e - Z.of_nat (List.length fd)).

(** The literals for which rounding is promised: unsigned integers below 2^64
    (larger ones are reduced modulo 2^64, C09), other literals with an exponent
    below 100000. *)
Definition lit_small (neg : bool) (ip : bytes) (e : Z) (i : bool) : Prop :=
  if i then neg = false -> digits_val ip < two64 else Z.abs e <= 99999.

(** A number of a document and its text. *)
Definition float_content (n : num) (src : bytes) : Prop :=
  forall neg ip fd e i, num_lit src neg ip fd e i -> lit_small neg ip e i -> lit_nearest neg ip fd e (n_f64 n).
