(** Finite floats and their decimal texts: what strconv.FormatFloat promises,
    and the floats that survive the way through a text (C55). *)
From Verif Require Import Base Float64 Value Unmarshal Access Opt Marshal SpecJson SpecRound.

(** [f] is a finite binary64 number: sign [s], magnitude M * 2^q. *)
Definition float64 (f : spec_float) (s : bool) (M q : Z) : Prop :=
  parts f = Some (s, M, q) /\ binary64 M q /\ normal_form M q.

(** The magnitude in units of 2^-1074. *)
Definition size (M q : Z) : Z := M * 2 ^ (q + 1074).

(** strconv.ParseFloat reads this literal as [f]. *)
Definition reads_as (s : bool) (ip fd : bytes) (e : Z) (f : spec_float) : Prop :=
  ~ lit_overflows ip fd e /\ lit_nearest s ip fd e f.

(** The documented contract of strconv.FormatFloat(f, fmt, -1, 64) for finite
    [f]: a decimal literal that ParseFloat reads back as [f].  Format 'f' (102)
    writes no exponent, and no fraction for floats from 2^53 on, which are
    integers; format 'e' (101) writes one digit before the point, and always an
    exponent. *)
Definition format_contract (E : Env) : Prop := forall f s M q, float64 f s M q ->
  (exists ip fd i, num_lit (fmt_float E f 102 (-1) 64) s ip fd 0 i /\ reads_as s ip fd 0 f /\
     (size (2 ^ 53) 0 <= size M q -> i = true)) /\
  (exists c fd e, num_lit (fmt_float E f 101 (-1) 64) s [c] fd e false /\ reads_as s [c] fd e f /\
     Z.abs e <= 99999).

(** NewFloat64, Marshal, Unmarshal, Float64. *)
Definition survives (E : Env) (W : World) (o : opt) (f : spec_float) : Prop :=
  exists t v, marshal_opt E W o (new_float64 E f) = Ok t /\ unmarshal E t = Ok (v, None) /\ api_float64 E v = Ok f.

(** The floats that NewFloat64 writes as integers that are too large for the
    parser: above 2^64 resp. below -2^63, and below 10^21 in magnitude. *)
Definition too_wide (s : bool) (M q : Z) : Prop :=
  size (if s then 2 ^ 63 else 2 ^ 64) 0 < size M q < size (10 ^ 21) 0.

(** The two borders, for which the contract leaves open whether the text lies
    on this or on that side of the limit. *)
Definition at_limit (s : bool) (M q : Z) : Prop := size M q = size (if s then 2 ^ 63 else 2 ^ 64) 0.

(** The decimal number +-m * 10^e is read as [f], and no decimal with fewer
    digits is; of those with as many digits it is the closest to [f], whose
    magnitude is M * 2^q. *)
Definition dec_reads (s : bool) (m e : Z) (f : spec_float) : Prop := 0 <= m /\ ~ overflows m e /\ nearest s m e f.
Definition fewest_closest (s : bool) (m e : Z) (f : spec_float) (M q : Z) : Prop :=
  dec_reads s m e f /\
  forall m' e', dec_reads s m' e' f ->
    (forall n, m' < 10 ^ n -> m < 10 ^ n) /\
    ((forall n, m < 10 ^ n -> m' < 10 ^ n) ->
     distance s m e (units s M q) * bottom e' <= distance s m' e' (units s M q) * bottom e).

(** Digits [ip] before and [fd] behind the point, exponent [e], make the number m * 10^e'. *)
Definition lit_is (ip fd : bytes) (e m e' : Z) : Prop :=
  let k := e - Z.of_nat (List.length fd) in
  digits_val (ip ++ fd) * 10 ^ Z.max k 0 * bottom e' = m * 10 ^ Z.max e' 0 * bottom k.

(** What precision -1 adds to the contract of strconv.FormatFloat, for the two
    borders: the fewest digits, and the closest of these. *)
Definition shortest_at_limit (E : Env) : Prop := forall f s M q, float64 f s M q -> at_limit s M q ->
  forall ip fd e i, num_lit (fmt_float E f 102 (-1) 64) s ip fd e i ->
  exists m e', lit_is ip fd e m e' /\ fewest_closest s m e' f M q.
