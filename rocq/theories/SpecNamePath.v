(** Paths of names (C91). *)
From Verif Require Import Base Float64 Value Path.

Definition names (ps : list param) : Prop := Forall (fun p => exists k, p = PStr k) ps.
