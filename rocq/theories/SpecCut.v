(** Texts that are documents other than a bare number. *)
From Verif Require Import Base Float64 Value Unmarshal.

Definition no_number (v : V) : Prop := forall n src, v <> VNum n src.
Definition document (E : Env) (b : bytes) (v : V) : Prop :=
  Forall is_byte b /\ unmarshal E b = Ok (v, None) /\ no_number v.
Definition rejected (E : Env) (b : bytes) : Prop := exists v e, unmarshal E b = Ok (v, Some e).
