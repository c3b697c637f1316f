(** Specification of the order in which object members are written. *)
From Verif Require Import Base Float64 Value Opt SpecJson SpecText.


(** Strict lexicographic order of byte strings. *)
Inductive blt : bytes -> bytes -> Prop :=
| BLT_nil c t : blt [] (c :: t)
| BLT_head c d s t : c < d -> blt (c :: s) (d :: t)
| BLT_tail c s t : blt s t -> blt (c :: s) (c :: t).

(** The last position of a key in a list of keys. *)
Definition last_pos (seq : list bytes) (k : bytes) (i : nat) : Prop :=
  nth_error seq i = Some k /\ forall j, (i < j)%nat -> nth_error seq j <> Some k.

(** The order of OptKeySequence: listed keys first, by (last) position, then
    the others by bytes. *)
Definition seq_before (seq : list bytes) (a b : bytes) : Prop :=
  (exists i j, last_pos seq a i /\ last_pos seq b j /\ (i < j)%nat) \/
  (In a seq /\ ~ In b seq) \/
  (~ In a seq /\ ~ In b seq /\ blt a b).

Definition by_key (lt : bytes -> bytes -> Prop) (kvs : list (bytes * (Z * V))) : Prop :=
  ForallOrdPairs (fun x y => lt (fst x) (fst y)) kvs.
Definition by_id (kvs : list (bytes * (Z * V))) : Prop :=
  ForallOrdPairs (fun x y => fst (snd x) < fst (snd y)) kvs.

(** Members with repeated names: the last one stays, in its place. *)
Fixpoint last_wins {A} (ms : list (bytes * A)) : list (bytes * A) :=
  match ms with
  | [] => []
  | (k, x) :: r => if in_dec (list_eq_dec Z.eq_dec) k (map fst r) then last_wins r else (k, x) :: last_wins r
  end.
(** [norm FS j j']: [j'] is [j] with repeated names resolved everywhere, and
    strings repaired. *)
Inductive norm : jv -> jv -> Prop :=
| NO_null : norm JNull JNull
| NO_bool b : norm (JBool b) (JBool b)
| NO_num lit : norm (JNum lit) (JNum lit)
| NO_str s s' : fixed s s' -> norm (JStr s) (JStr s')
| NO_arr l l' : Forall2 norm l l' -> norm (JArr l) (JArr l')
| NO_obj ms ms' :
    Forall2 (fun m m' => fixed (fst m) (fst m') /\ norm (snd m) (snd m')) (last_wins ms) ms' ->
    norm (JObj ms) (JObj ms').

(** *** When the order is determined *)

Definition strict_weak_order {A} (R : A -> A -> bool) : Prop :=
  (forall x, R x x = false) /\
  (forall x y z, R x y = true -> R y z = true -> R x z = true) /\
  (forall x y z, R x y = false -> R y x = false -> R y z = false -> R z y = false -> R x z = false).

(** A less function that decides, for each object, a strict order in which
    members with different names are never tied. *)
Definition less_total (f : less_func) : Prop := forall pi, exists lt : bytes * V -> bytes * V -> bool,
  strict_weak_order lt /\
  (forall x y, fst x <> fst y -> lt x y = false -> lt y x = true) /\
  forall k1 k2 v1 v2, k1 <> k2 -> f pi k1 k2 v1 v2 = lt (k1, v1) (k2, v2).

(** The options determine the order of the members [kvs] of an object. *)
Definition total_order (o : opt) (kvs : list (bytes * (Z * V))) : Prop :=
  match o_less o with
  | Some f => less_total f
  | None => match o_keyseq o with
            | _ :: _ => True
            | [] => o_setseq o = true /\ NoDup (map (fun x => fst (snd x)) kvs)
            end
  end.
