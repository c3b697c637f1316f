(** Specification for texts that parsing and marshalling reproduce (C60). *)
From Verif Require Import Base Float64 Value SpecJson SpecText SpecOrder.

(** Repairing the names of an object keeps their order [lt] (and so identifies
    none of them). *)
Definition order_kept (lt : bytes -> bytes -> Prop) (kvs : list (bytes * (Z * V))) : Prop :=
  forall k1 k2 s1 s2, In k1 (map fst kvs) -> In k2 (map fst kvs) -> fixed k1 s1 -> fixed k2 s2 -> lt k1 k2 -> lt s1 s2.
