(** Specification of the predicates of numbers. *)
From Verif Require Import Base Float64.

(** The number [f] is at least [z], for positive [z]. *)
Definition at_least (f : spec_float) (z : Z) : Prop :=
  match f with
  | S754_finite false m e => z * 2 ^ Z.max 0 (- e) <= Z.pos m * 2 ^ Z.max 0 e
  | S754_infinity false => True
  | _ => False
  end.
(** The number [f] is negative. *)
Definition below_zero (f : spec_float) : Prop :=
  match f with S754_finite true _ _ | S754_infinity true => True | _ => False end.
