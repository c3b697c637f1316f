(** C75: calls on two documents that are Equal. *)
From Verif Require Import Base Float64 Value Scan Unmarshal Opt Marshal Access Path Edit Iter Compare SpecJson SpecValue SpecSafe.

(** JSON values that Equal cannot tell apart. *)
Definition twins (v w : V) : Prop := json_typed v /\ json_typed w /\ forall W path, equal W path v w = true.

(** The same call, with arguments that are Equal.  Calls along a path, case-sensitive;
    SortArray with functions that do not tell Equal elements apart. *)
Inductive same_call : act -> act -> Prop :=
| SC_get p o : same_call (AGet false p o) (AGet false p o)
| SC_into p o : same_call (AInto false p o) (AInto false p o)
| SC_must p o : same_call (AMustGet false p o) (AMustGet false p o)
| SC_set c d p o : twins c d -> same_call (ASet (arg_v c) p o) (ASet (arg_v d) p o)
| SC_before c d p o : twins c d -> same_call (ABefore (arg_v c) p o) (ABefore (arg_v d) p o)
| SC_after c d p o : twins c d -> same_call (AAfter (arg_v c) p o) (AAfter (arg_v d) p o)
| SC_append front c d ps : twins c d -> same_call (AAppend front (arg_v c) ps) (AAppend front (arg_v d) ps)
| SC_delete p o : same_call (ADelete false p o) (ADelete false p o)
| SC_sort f g : (forall x x' y y', twins x x' -> twins y y' -> f x y = g x' y') -> same_call (ASort (Some f)) (ASort (Some g))
| SC_load b : same_call (ALoad b) (ALoad b)
| SC_len : same_call ALen ALen
| SC_type : same_call AType AType.

Definition same_step (a b : World * opt * act) : Prop :=
  fst (fst a) = fst (fst b) /\ same_call (snd a) (snd b).

(** The same answer, where values need only be twins. *)
Inductive same_answer : res V -> res V -> Prop :=
| SA_ok x y : twins x y -> same_answer (Ok x) (Ok y)
| SA_err e : same_answer (Err e) (Err e).
