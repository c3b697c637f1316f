(** Specification of the set sequence: what RangeObjectsBySetSequence shows, and
    texts that keep to it at every depth. *)
From Verif Require Import Base Float64 Value Opt Marshal Iter GoValue SpecJson SpecText SpecOrder SpecHistory.

(** What a callback that always goes on gathers. *)
Definition gather (s : list (bytes * V)) (e : bytes * V) : list (bytes * V) * bool := (s ++ [e], true).

(** The members of [v] in set sequence, whatever order Go maps iterate in. *)
Definition in_set_order (v : V) (es : list (bytes * V)) : Prop :=
  forall W path, range_objects_by_set W path v (Some gather) [] = Ok es.

Definition member_count (v : V) : nat := match v with VObj _ kvs _ => List.length kvs | _ => 0 end.
Definition counts (vs : list V) : nat := fold_right (fun v n => (member_count v + n)%nat) 0%nat vs.

(** The names in an object differ, as the keys of a Go map do. *)
Definition distinct_names (g : gov) : Prop := forall i kvs lo, contains_value g (VObj i kvs lo) -> NoDup (map fst kvs).

(** So it is in the embedded fields. *)
Definition embeds_distinct (fs : list (gfield * gov)) : Prop := Forall (fun e => gf_anon (fst e) = true -> distinct_names (snd e)) fs.

(** [l] is what is left of [l'] when some elements are taken away. *)
Inductive left_of {A} : list A -> list A -> Prop :=
| lf_nil : left_of [] []
| lf_keep x l l' : left_of l l' -> left_of (x :: l) (x :: l')
| lf_drop x l l' : left_of l l' -> left_of l (x :: l').

(** [j] has the members of every object in [v] in set sequence. *)
Inductive sequenced : V -> jv -> Prop :=
| sq_obj i kvs lo es ms : in_set_order (VObj i kvs lo) es ->
    Forall2 (fun e m => fixed (fst e) (fst m) /\ sequenced (snd e) (snd m)) es ms -> sequenced (VObj i kvs lo) (JObj ms)
| sq_arr l js : Forall2 sequenced l js -> sequenced (VArr l) (JArr js)
| sq_other v j : (forall i kvs lo, v <> VObj i kvs lo) -> (forall l, v <> VArr l) -> sequenced v j.
