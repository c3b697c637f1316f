(** Where the nil pointer stands in a value. *)
From Verif Require Import Base Value.

(** [nil_at v]: v is nil, or something inside it is. *)
Inductive nil_at : V -> Prop :=
| nil_here : nil_at VNil
| nil_element l x : In x l -> nil_at x -> nil_at (VArr l)
| nil_member i (kvs : list kv) lo k id x : In (k, (id, x)) kvs -> nil_at x -> nil_at (VObj i kvs lo).
