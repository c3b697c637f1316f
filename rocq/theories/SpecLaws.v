(** Specification of documents that hold the same. *)
From Verif Require Import Base Value.

(** Equal but for what a document does not show by itself: the numbers that
    record the order of setting, the order in which a map lists its entries, and
    the index for caseless access. *)
Inductive same_doc : V -> V -> Prop :=
| same_leaf v : match v with VObj _ _ _ | VArr _ => False | _ => True end -> same_doc v v
| same_elems l l' : Forall2 same_doc l l' -> same_doc (VArr l) (VArr l')
| same_members i kvs lo i' kvs' lo' :
    (forall k id x, In (k, (id, x)) kvs -> exists id' y, In (k, (id', y)) kvs' /\ same_doc x y) ->
    (forall k id' y, In (k, (id', y)) kvs' -> exists id x, In (k, (id, x)) kvs /\ same_doc x y) ->
    same_doc (VObj i kvs lo) (VObj i' kvs' lo').

(** The index of an element that InsertBefore or InsertAfter puts next to index
    [i], counted from the same end. *)
Definition new_index (after : bool) (i : Z) : Z :=
  if after then if i <? 0 then i else i + 1 else if i <? 0 then i - 1 else i.
