(** Specification of values that show the same: equal strings and names once what
    is not UTF-8 is replaced, equal number texts, members in any order. *)
From Verif Require Import Base Float64 Value SpecJson SpecText.

Definition same_fixed (s s' : bytes) : Prop := exists t, fixed s t /\ fixed s' t.

Inductive same_shown : V -> V -> Prop :=
| SS_null : same_shown VNull VNull
| SS_bool b : same_shown (VBool b) (VBool b)
| SS_num n n' src : same_shown (VNum n src) (VNum n' src)
| SS_str s s' : same_fixed s s' -> same_shown (VStr s) (VStr s')
| SS_arr l l' : Forall2 same_shown l l' -> same_shown (VArr l) (VArr l')
| SS_obj i kvs lo i' kvs' lo' l l' :
    Permutation kvs l -> Permutation kvs' l' ->
    Forall2 (fun x y => same_fixed (fst x) (fst y) /\ same_shown (snd (snd x)) (snd (snd y))) l l' ->
    same_shown (VObj i kvs lo) (VObj i' kvs' lo').
