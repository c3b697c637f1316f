(** Specification of concurrent reading. *)
From Verif Require Import Base Utf8 Float64 Value ConcRead.

(** The child that a lookup should find: the member of that name; if there is none and
    the lookup is caseless, a member whose name is the same in lower case. *)
Definition fits (E : Env) (d : tree) (a : answer) (c : nat) : Prop :=
  let '(o, k, cl, _) := a in
  In (k, c) (members_of d o) \/
  (cl = true /\ ~ In k (map fst (members_of d o)) /\
   exists k', In (k', c) (members_of d o) /\ to_lower E k' = to_lower E k).
Definition right (E : Env) (d : tree) (a : answer) : Prop :=
  match snd a with
  | Some c => fits E d a c
  | None => forall c, ~ fits E d a c
  end.

Definition caseless_answer (a : answer) : bool := let '(_, _, cl, _) := a in cl.

(** The index of an object is there and has all its names. *)
Definition built (E : Env) (d : tree) (s : store) (o : nat) : Prop :=
  exists m, lower_of (s o) = Some m /\
  (forall k, In k (map fst (members_of d o)) -> exists ks, alookup (to_lower E k) m = Some ks /\ In k ks) /\
  (forall lk ks k, alookup lk m = Some ks -> In k ks -> In k (map fst (members_of d o)) /\ to_lower E k = lk).

(** The program looks caselessly only into objects with [C]. *)
Fixpoint looks_within (C : nat -> Prop) (p : prog) : Prop :=
  match p with
  | Done => True
  | Look o _ cl next => (cl = true -> C o) /\ forall r, looks_within C (next r)
  end.

(** Nothing has been made yet. *)
Definition fresh (s : store) : Prop := forall o, s o = index0.

Definition finished (t : thread) : Prop := t_prog t = Done.

(** Two goroutines are about to touch the same place, and one of them to write. *)
Definition racing (l : list thread) : Prop :=
  exists i j t u p w w', i <> j /\ nth_error l i = Some t /\ nth_error l j = Some u /\
  touches t = Some (p, w) /\ touches u = Some (p, w') /\ (w = true \/ w' = true).

(** The reader looked caselessly for a name that the object does not have. *)
Definition warmed (d : tree) (t : thread) (o : nat) : Prop :=
  exists k r, In (o, k, true, r) (t_log t) /\ ~ In k (map fst (members_of d o)).

(** Two memories that are the same at a place. *)
Definition same_at (s s' : store) (p : place) : Prop :=
  match p with
  | PField o => x_field (s o) = x_field (s' o)
  | PMap o m => nth m (x_maps (s o)) [] = nth m (x_maps (s' o)) []
  | PInner o i => nth i (x_inner (s o)) [] = nth i (x_inner (s' o)) []
  end.

(** As many maps have been made. *)
Definition as_many (s s' : store) : Prop := forall o,
  List.length (x_maps (s o)) = List.length (x_maps (s' o)) /\ List.length (x_inner (s o)) = List.length (x_inner (s' o)).
