(** Key paths that the less function keeps (C44, C48). *)
From Verif Require Import Base Float64 Value Opt Marshal SpecOut KeyMem.

(** The capacities of the arrays that appending one key at a time goes
    through, beginning with KeyPath{&key}. *)
Inductive full (g : nat -> nat) : nat -> Prop :=
| F_one : full g 1
| F_more n : full g n -> full g (g n).

(** The lengths at which the path gets an array of its own. *)
Inductive fresh_length (g : nat -> nat) : nat -> Prop :=
| L_one : fresh_length g 1
| L_more n : full g n -> fresh_length g (S n).

(** The path told is that of an object of [v] with at least two members. *)
Definition told_right (v : V) (ks : list key) : Prop :=
  exists p i kvs lo, at_path v p (VObj i kvs lo) /\ (2 <= List.length kvs)%nat /\ ks = map step_key p.

(** The result without the memory. *)
Definition no_store (r : res (store * bytes)) : res bytes := let* (_, b) := r in Ok b.

(** *** ParentInfo.Parent (C49) *)

(** The Parent told with a call for the members of the object [obj] at path
    [p] of [v]: [true_parent], the value that contains the object, and
    [given_parent], what the code passes. *)
Definition true_parent (v : V) (p : list step) (obj x : V) : Prop :=
  exists q s, p = q ++ [s] /\ at_path v q x.
Definition given_parent (v : V) (p : list step) (obj x : V) : Prop :=
  (exists q k, p = q ++ [SKey k] /\ x = obj) \/
  (exists q n, p = q ++ [SIdx n] /\ at_path v q x /\ exists l, x = VArr l).

Definition call_with (parent : V -> list step -> V -> V -> Prop)
  (v : V) (pi : option pinfo) (k1 k2 : bytes) (v1 v2 : V) : Prop :=
  exists p i kvs lo id1 id2, at_path v p (VObj i kvs lo) /\ info_of p pi /\
    (forall q, pi = Some q -> parent v p (VObj i kvs lo) (pi_parent q)) /\
    In (k1, (id1, v1)) kvs /\ In (k2, (id2, v2)) kvs.
