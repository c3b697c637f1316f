(** Specification of where a path leads after Set: which indexes are read where
    they were written, and which paths an appended element shifts. *)
From Verif Require Import Base Value Path SpecPath.

(** An index that Set writes where Get reads it: one within the bounds of the
    array, or -1 on the empty array. *)
Definition index_kept (l : list V) (i : Z) : Prop :=
  - Z.of_nat (List.length l) <= i <= Z.of_nat (List.length l) \/ (i = -1 /\ l = []).

(** Every index the path meets on its way through the document is such. *)
Definition reach_ok (v : V) (ps : list param) : Prop :=
  forall ps1 p ps2 hs l i, ps = ps1 ++ p :: ps2 -> leads v ps1 hs (VArr l) ->
    index_value p = Some i -> index_kept l i.

(** The path counts from the end of the array whose place after the last element
    is [w]. *)
Definition shifted (v : V) (q : list param) (w : list hop) : Prop :=
  exists q1 p q2 hs l i, q = q1 ++ p :: q2 /\ leads v q1 hs (VArr l) /\
    index_value p = Some i /\ i < 0 /\ w = hs ++ [HIdx (List.length l)].
