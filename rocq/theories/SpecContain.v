(** Specification of containment. *)
From Verif Require Import Base Float64 Value.

Definition scalar_value (v : V) : Prop :=
  match v with VStr _ | VNum _ _ | VBool _ | VNull => True | _ => False end.

(** [contained EQ v w]: the value [w] is contained in [v], where [EQ] says which
    values are equal: equal scalars; every member of [w] contained in the member
    of [v] of the same name; the elements of [w] a run of elements of [v]. *)
Inductive contained (EQ : V -> V -> Prop) : V -> V -> Prop :=
| contained_scalar v w : scalar_value v -> scalar_value w -> EQ v w -> contained EQ v w
| contained_obj i kvs lo i' kvs' lo' :
    (forall k id y, In (k, (id, y)) kvs' -> exists id' x, In (k, (id', x)) kvs /\ contained EQ x y) ->
    contained EQ (VObj i kvs lo) (VObj i' kvs' lo')
| contained_arr a l b l' : Forall2 EQ l l' -> contained EQ (VArr (a ++ l ++ b)) (VArr l').
