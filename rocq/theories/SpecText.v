(** Specification of text: which Unicode scalar values a byte string holds, and
    which abstract JSON a value is shown as. *)
From Verif Require Import Base Float64 Value SpecJson.
From Coq Require Export Permutation.

(** Scalar values of a byte string, in order.  A byte that does not start a
    well-formed UTF-8 sequence counts as U+FFFD. *)
Inductive utf8_read : bytes -> list Z -> Prop :=
| UR_nil : utf8_read [] []
| UR_char cp s l : scalar cp -> utf8_read s l -> utf8_read (utf8 cp ++ s) (cp :: l)
| UR_bad b s l :
    (forall cp t, scalar cp -> b :: s <> utf8 cp ++ t) ->
    utf8_read s l -> utf8_read (b :: s) (65533 :: l).

Definition utf8_enc (l : list Z) : bytes := flat_map utf8 l.

(** Well-formed UTF-8. *)
Definition well_formed (s : bytes) : Prop := exists l, Forall scalar l /\ s = utf8_enc l.

(** [fixed s s']: [s'] is [s] with every ill-formed byte replaced by U+FFFD. *)
Definition fixed (s s' : bytes) : Prop := exists l, utf8_read s l /\ s' = utf8_enc l.

(** Bytes, none of them U+000B. *)
Definition str_ok (s : bytes) : Prop := Forall is_byte s /\ ~ In 11 s.

(** All strings (values and member names) of a value satisfy [PS], all numbers
    satisfy [PN]. *)
Section All.
Variable PS : bytes -> Prop.
Variable PN : num -> bytes -> Prop.
Fixpoint all_text (v : V) : Prop :=
  match v with
  | VStr s => PS s
  | VNum n src => PN n src
  | VArr l => (fix go (l : list V) : Prop :=
                 match l with [] => True | x :: r => all_text x /\ go r end) l
  | VObj _ kvs _ => (fix go (l : list (bytes * (Z * V))) : Prop :=
                 match l with [] => True | (k, (_, x)) :: r => PS k /\ all_text x /\ go r end) kvs
  | _ => True
  end.
End All.

(** All objects of a value (member lists) satisfy [P]. *)
Section AllObj.
Variable P : list (bytes * (Z * V)) -> Prop.
Fixpoint all_objs (v : V) : Prop :=
  match v with
  | VArr l => (fix go (l : list V) : Prop :=
                 match l with [] => True | x :: r => all_objs x /\ go r end) l
  | VObj _ kvs _ => P kvs /\ (fix go (l : list (bytes * (Z * V))) : Prop :=
                 match l with [] => True | (_, (_, x)) :: r => all_objs x /\ go r end) kvs
  | _ => True
  end.
End AllObj.

Definition is_null (v : V) : bool := match v with VNull => true | _ => false end.

(** [shows NT om ORD v j]: [j] is the abstract JSON of the value [v], where
    strings are repaired as above, a number is shown as [NT] says, the members
    of each object come in an order satisfying [ORD], and members that are null
    are left out if [om]. *)
Section Shows.
Variable NT : num -> bytes -> jv -> Prop.
Variable om : bool.
Variable ORD : list (bytes * (Z * V)) -> Prop.
Definition kept (kvs : list (bytes * (Z * V))) : list (bytes * (Z * V)) :=
  if om then filter (fun x => negb (is_null (snd (snd x)))) kvs else kvs.
Inductive shows : V -> jv -> Prop :=
| SH_null : shows VNull JNull
| SH_bool b : shows (VBool b) (JBool b)
| SH_num n src j : NT n src j -> shows (VNum n src) j
| SH_str s s' : fixed s s' -> shows (VStr s) (JStr s')
| SH_arr l l' : Forall2 shows l l' -> shows (VArr l) (JArr l')
| SH_obj i kvs lo kvs' ms :
    Permutation kvs kvs' -> ORD kvs' ->
    Forall2 (fun x m => fixed (fst x) (fst m) /\ shows (snd (snd x)) (snd m)) (kept kvs') ms ->
    shows (VObj i kvs lo) (JObj ms).
End Shows.

Definition any_order : list (bytes * (Z * V)) -> Prop := fun _ => True.

(** Numbers shown by their text, no member left out, members in any order. *)
Definition num_text (n : num) (src : bytes) (j : jv) : Prop := j = JNum src.
Definition shows_text : V -> jv -> Prop := shows num_text false any_order.

(** [same_json NR om v v']: [v'] is the same JSON value as [v], where strings
    and member names are repaired as above, numbers have the same text and
    [NR] relates their contents, members come in any order, and null members
    are missing in [v'] if [om]. *)
Section Same.
Variable NR : num -> bytes -> num -> Prop.
Variable om : bool.
Inductive same_json : V -> V -> Prop :=
| SJ_null : same_json VNull VNull
| SJ_bool b : same_json (VBool b) (VBool b)
| SJ_num n src n' : NR n src n' -> same_json (VNum n src) (VNum n' src)
| SJ_str s s' : fixed s s' -> same_json (VStr s) (VStr s')
| SJ_arr l l' : Forall2 same_json l l' -> same_json (VArr l) (VArr l')
| SJ_obj i kvs lo kvs2 i' kvs' lo' :
    Permutation (kept om kvs) kvs2 ->
    Forall2 (fun x y => fixed (fst x) (fst y) /\ same_json (snd (snd x)) (snd (snd y))) kvs2 kvs' ->
    same_json (VObj i kvs lo) (VObj i' kvs' lo').
End Same.

(** Repairing does not identify member names. *)
Definition names_distinct (kvs : list (bytes * (Z * V))) : Prop :=
  forall k1 k2 s, In k1 (map fst kvs) -> In k2 (map fst kvs) -> fixed k1 s -> fixed k2 s -> k1 = k2.

(** [t] is the decimal text of the integer [i]: no superfluous zero or sign. *)
Definition decimal (t : bytes) (i : Z) : Prop :=
  (int_part t /\ digits_val t = i) \/
  (exists ip, t = 45 :: ip /\ int_part ip /\ digits_val ip = - i /\ i < 0).

(** The content that an integer literal [src] has as number [n]: its value if
    it fits, reduced modulo 2^64 otherwise; what does not fit int64 on the
    negative side or has more than 20 digits does not occur. *)
Definition int_content (n : num) (src : bytes) : Prop :=
  (digits src -> (List.length src <= 20)%nat /\ n_neg n = false /\ n_flt n = false /\
     n_u64 n = digits_val src mod two64 /\ (digits_val src < two64 -> n_u64 n = digits_val src)) /\
  (forall ip, src = 45 :: ip -> digits ip ->
     digits_val ip <= two63 /\ n_neg n = true /\ n_flt n = false /\ n_i64 n = - digits_val ip).
