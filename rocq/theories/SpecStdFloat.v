(** What encoding/json writes for a float (floatEncoder.encode in
    encoding/json/encode.go of Go): strconv.FormatFloat with format 'f', or for
    very small and very large numbers 'e', where an exponent e-0d is shortened to
    e-d. *)
From Verif Require Import Base Float64 Value SpecRound SpecFloatText.

(** [short_exp b x d]: the text [b] ends in e-0d. *)
Definition short_exp (b x : bytes) (d : Z) : Prop := b = x ++ bs "e-0" ++ [d].

Definition shortened (b t : bytes) : Prop :=
  (exists x d, short_exp b x d /\ t = x ++ bs "e-" ++ [d]) \/
  ((forall x d, ~ short_exp b x d) /\ t = b).

Definition is_zero (f : spec_float) : bool := match f with S754_zero _ => true | _ => false end.

(** Below [lo] or from [hi] on, in magnitude, zero excepted. *)
Definition exponent_form (lo hi f : spec_float) : bool :=
  negb (is_zero f) && (SFltb (SFabs f) lo || SFleb hi (SFabs f)).

Definition std_float (E : Env) (bits : Z) (lo hi f : spec_float) (t : bytes) : Prop :=
  if exponent_form lo hi f then shortened (fmt_float E f 101 (-1) bits) t
  else t = fmt_float E f 102 (-1) bits.

(** 1e-6 and 1e21 as float64 and as float32 (the nearest numbers with 53 resp. 24
    bits). *)
Definition lo64 : spec_float := f_of_dec false 1 (-6).
Definition hi64 : spec_float := f_of_dec false 1 21.
Definition lo32 : spec_float := S754_finite false 4722366470946816 (-72).
Definition hi32 : spec_float := S754_finite false 7629394684149760 17.

Definition std_float64 (E : Env) : spec_float -> bytes -> Prop := std_float E 64 lo64 hi64.
Definition std_float32 (E : Env) : spec_float -> bytes -> Prop := std_float E 32 lo32 hi32.

(** Format 'e' writes the letter e, format 'f' does not. *)
Definition letter_contract (E : Env) : Prop := forall f s M q bits, float64 f s M q ->
  In 101 (fmt_float E f 101 (-1) bits) /\ ~ In 101 (fmt_float E f 102 (-1) bits).

(** The text of a number. *)
Definition text_of (v : V) : option bytes := match v with VNum _ src => Some src | _ => None end.

(** [f] is a float32 (as a float64): a multiple m * 2^k with m of 24 bits. *)
Definition float32 (f : spec_float) (s : bool) (M q : Z) : Prop :=
  float64 f s M q /\ exists m k, 0 <= m < 2 ^ 24 /\ -149 <= k /\ size M q = size m k.
