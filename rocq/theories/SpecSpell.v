(** The members of objects in the order in which they are written, and the
    condition under which the output is JSON. *)
From Verif Require Import Base Float64 Value SpecJson SpecText SpecLax.

(** A number text: some bytes that occur in numbers. *)
Definition num_bytes (n : num) (src : bytes) : Prop := src <> [] /\ Forall number_byte src.

(** [rearranged v v']: [v'] is [v] with the members of its objects in some
    order. *)
Inductive rearranged : V -> V -> Prop :=
| RA_same v : (forall i kvs lo, v <> VObj i kvs lo) -> (forall l, v <> VArr l) -> rearranged v v
| RA_arr l l' : Forall2 rearranged l l' -> rearranged (VArr l) (VArr l')
| RA_obj i kvs lo kvs1 kvs' :
    Permutation kvs kvs1 ->
    Forall2 (fun x y => fst x = fst y /\ fst (snd x) = fst (snd y) /\ rearranged (snd (snd x)) (snd (snd y))) kvs1 kvs' ->
    rearranged (VObj i kvs lo) (VObj i kvs' lo).

Section Omit.
Variable om : bool.   (* OptOmitNull *)

Definition left_out (x : bytes * (Z * V)) : Prop := om = true /\ snd (snd x) = VNull.

(** All strings, names and numbers that are written. *)
Section Written.
Variable PS : bytes -> Prop.
Variable PN : num -> bytes -> Prop.
Inductive written_text : V -> Prop :=
| WT_str s : PS s -> written_text (VStr s)
| WT_num n src : PN n src -> written_text (VNum n src)
| WT_bool b : written_text (VBool b)
| WT_null : written_text VNull
| WT_arr l : Forall written_text l -> written_text (VArr l)
| WT_obj i kvs lo :
    Forall (fun x => left_out x \/ PS (fst x) /\ written_text (snd (snd x))) kvs -> written_text (VObj i kvs lo).
End Written.

(** The members left out stand before or behind the others. *)
Definition contiguous (kvs : list (bytes * (Z * V))) : Prop :=
  exists a b c, kvs = a ++ b ++ c /\ Forall left_out a /\ Forall (fun x => ~ left_out x) b /\ Forall left_out c.

(** [spelled v j]: the tree [j] shows [v], members in the given order. *)
Inductive spelled : V -> jv -> Prop :=
| SP_null : spelled VNull JNull
| SP_bool b : spelled (VBool b) (JBool b)
| SP_num n src : spelled (VNum n src) (JNum src)
| SP_str s s' : fixed s s' -> spelled (VStr s) (JStr s')
| SP_arr l l' : Forall2 spelled l l' -> spelled (VArr l) (JArr l')
| SP_obj i kvs lo ms :
    Forall2 (fun x m => fixed (fst x) (fst m) /\ spelled (snd (snd x)) (snd m)) (kept om kvs) ms ->
    spelled (VObj i kvs lo) (JObj ms).
End Omit.
