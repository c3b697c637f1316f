(** Exactly which number literals of RFC 8259 are accepted, and as what. *)
From Verif Require Import Base Float64 Value SpecJson SpecRound.

(** The exponent that strconv.ParseFloat takes into account: of exponents from
    100000 on only the first five digits. *)
Definition five (e e' : Z) : Prop :=
  (Z.abs e <= 99999 /\ e' = e) \/
  (exists k, 0 < k /\ 10000 <= Z.abs e / 10 ^ k <= 99999 /\ e' = Z.sgn e * (Z.abs e / 10 ^ k)).

(** Integers: negative ones down to -2^63; others up to 19 digits, and those of
    20 digits whose value modulo 2^64 has 20 digits as well.  Other literals:
    no zero may follow integer digits that are a multiple of 2^64, and the
    number must be in the range of binary64. *)
Definition lit_accepted (lit : bytes) : Prop :=
  exists neg ip fd e i, num_lit lit neg ip fd e i /\
    if i then
      if neg then digits_val ip <= 2 ^ 63
      else (List.length ip <= 19)%nat \/ (List.length ip = 20%nat /\ 10 ^ 19 <= digits_val ip mod 2 ^ 64)
    else no_wrap ip /\ forall e', five e e' -> ~ lit_overflows ip fd e'.

(** The number read: integers without sign modulo 2^64, anything else the
    binary64 number nearest to the literal. *)
Definition lit_content (lit : bytes) (n : num) : Prop :=
  exists neg ip fd e i, num_lit lit neg ip fd e i /\
    if i then
      n_flt n = false /\ n_neg n = neg /\
      if neg then n_i64 n = - digits_val ip /\ n_u64 n = (- digits_val ip) mod 2 ^ 64 /\ nearest true (digits_val ip) 0 (n_f64 n)
      else exists u, u = digits_val ip mod 2 ^ 64 /\ n_u64 n = u /\ n_i64 n = (if u <? 2 ^ 63 then u else u - 2 ^ 64) /\
             nearest false u 0 (n_f64 n)
    else n_flt n = true /\ exists e', five e e' /\ lit_nearest neg ip fd e' (n_f64 n).
