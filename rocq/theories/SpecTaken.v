(** Specification of the number that comparison takes a literal for. *)
From Coq Require Import QArith_base.
From Verif Require Import Base Float64 Value SpecJson SpecNum.
Open Scope Z_scope.

(** [taken_as lit q]: the value of the literal, and zero if the exponent is not
    that of an int32. *)
Inductive taken_as (lit : bytes) (q : Q) : Prop :=
| TA_value : denotes_number lit q -> small_exponent lit -> taken_as lit q
| TA_zero p : denotes_number lit p -> ~ small_exponent lit -> (q == 0)%Q -> taken_as lit q.

(** Two literals taken for the same number. *)
Definition taken_same (s t : bytes) : Prop := exists p q, taken_as s p /\ taken_as t q /\ (p == q)%Q.
