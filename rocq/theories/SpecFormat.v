(** Specification of the format letters of NewFloat64f and NewFloat32f (C61). *)
From Verif Require Import Base Float64 Value Access Unmarshal Opt Marshal SpecJson SpecRound SpecFloatText.

(** 'f', 'E', 'e', 'G', 'g' *)
Definition formats : list Z := [102; 69; 101; 71; 103].
(** [c'] is the format used for the argument [c]: 'g' (103) for all others. *)
Definition uses_format (c c' : Z) : Prop := (In c formats -> c' = c) /\ (~ In c formats -> c' = 103).

(** The documented contract of strconv.FormatFloat(f, fmt, -1, 64) for the
    formats with an exponent: a literal that ParseFloat reads back as [f], with
    one digit before the point or, for 'g' and 'G', few ones. *)
Definition short_contract (E : Env) : Prop := forall f s M q c, float64 f s M q -> In c [69; 101; 71; 103] ->
  exists ip fd e i, num_lit (fmt_float E f c (-1) 64) s ip fd e i /\ reads_as s ip fd e f /\ Z.abs e <= 99999 /\
    digits_val ip < 10 ^ 18.

(** Marshal, Unmarshal, Float64 of a number give [f]. *)
Definition reread (E : Env) (W : World) (o : opt) (x : V) (f : spec_float) : Prop :=
  exists t v, marshal_opt E W o x = Ok t /\ unmarshal E t = Ok (v, None) /\ api_float64 E v = Ok f.
