(** Specification of iteration whose callback edits: lists and maps only. *)
From Verif Require Import Base Float64 Value Opt Marshal Iter RangeEdit.

(** A slice lies in an array that is there and has room for it. *)
Definition slice_ok (m : mem) (s : slice) : Prop :=
  (sl_arr s < List.length m)%nat /\ (sl_len s <= List.length (cells m s))%nat.

(** Positions count from the front, negative ones from the back. *)
Definition index (n : nat) (p : Z) : option nat :=
  if (0 <=? p) && (p <? Z.of_nat n) then Some (Z.to_nat p)
  else if (- Z.of_nat n <=? p) && (p <? 0) then Some (Z.to_nat (p + Z.of_nat n))
  else None.

(** What a call makes of the elements. *)
Definition edited (l : list V) (a : acall) : list V :=
  match a with
  | ASet x p =>
    match x with
    | VNil | VNotExist => l
    | _ => if p =? Z.of_nat (List.length l) then l ++ [x]
           else match index (List.length l) p with
                | Some k => firstn k l ++ x :: skipn (S k) l
                | None => l
                end
    end
  | ABefore x p => match index (List.length l) p with Some k => firstn k l ++ x :: skipn k l | None => l end
  | AAfter x p => match index (List.length l) p with Some k => firstn (S k) l ++ x :: skipn (S k) l | None => l end
  | ABegin x => x :: l
  | AEnd x => l ++ [x]
  | ADelete p => match index (List.length l) p with Some k => firstn k l ++ skipn (S k) l | None => l end
  | ASort W less => go_sort W less l
  end.

(** [replay cb st l t l']: the callback, beginning in state [st] with the elements [l],
    was called as recorded in [t]; every record shows what the calls made before have
    left, and [l'] is what is left in the end. *)
Inductive replay {S} (cb : acallback S) : S -> list V -> list arecord -> list V -> Prop :=
| RP_end st l : replay cb st l [] l
| RP_stop st l i x st' calls : cb st l i x = (st', calls, false) ->
    replay cb st l [(l, i, x)] (fold_left edited calls l)
| RP_go st l i x st' calls t l' : cb st l i x = (st', calls, true) ->
    replay cb st' (fold_left edited calls l) t l' -> replay cb st l ((l, i, x) :: t) l'.

(** The records have the positions from 0 on. *)
Definition in_turn (t : list arecord) : Prop :=
  forall n w i x, nth_error t n = Some (w, i, x) -> i = Z.of_nat n.
Definition delivered (t : list arecord) : list V := map snd t.

(** The callback always asks to go on. *)
Definition never_stops {S} (cb : acallback S) : Prop := forall st w i x, snd (cb st w i x) = true.

(** Only calls that need no room: deletions, sorting, and Set of an element that is there
    (or an error). *)
Inductive no_room : list V -> list acall -> Prop :=
| NR_nil l : no_room l []
| NR_delete l p r : no_room (edited l (ADelete p)) r -> no_room l (ADelete p :: r)
| NR_sort l W less r : no_room (edited l (ASort W less)) r -> no_room l (ASort W less :: r)
| NR_set l x p r : p <> Z.of_nat (List.length l) -> no_room (edited l (ASet x p)) r -> no_room l (ASet x p :: r).
Definition needs_no_room {S} (cb : acallback S) : Prop :=
  forall st w i x, no_room w (snd (fst (cb st w i x))).

(** Only sorting. *)
Definition only_sorts {S} (cb : acallback S) : Prop :=
  forall st w i x, Forall (fun a => exists W less, a = ASort W less) (snd (fst (cb st w i x))).

(** v.RangeArray(func(i int, c *V) bool { if i == k { v.SortArray(less) }; return true }) *)
Definition sorting_at (k : nat) (W : World) (less : V -> V -> bool) : acallback unit :=
  fun _ _ i _ => (tt, if i =? Z.of_nat k then [ASort W less] else [], true).

(** Only additions at the end. *)
Definition only_appends {S} (cb : acallback S) : Prop :=
  forall st w i x, Forall (fun a => exists y, a = AEnd y) (snd (fst (cb st w i x))).

(** The loop that deletes the elements it does not want:
    v.RangeArray(func(i int, c *V) bool { if p(c) { v.Delete(i) }; return true }) *)
Definition deleting (p : V -> bool) : acallback unit :=
  fun _ _ i x => (tt, if p x then [ADelete i] else [], true).

(** What that loop leaves: the element after a deleted one is not looked at. *)
Fixpoint every_other (p : V -> bool) (l : list V) : list V :=
  match l with
  | [] => []
  | x :: r => if p x then match r with [] => [] | y :: r' => y :: every_other p r' end
              else x :: every_other p r
  end.

(** Two neighbours for which [p] holds. *)
Definition neighbours (p : V -> bool) (l : list V) : Prop :=
  exists a x y b, l = a ++ x :: y :: b /\ p x = true /\ p y = true.

(** *** Objects *)

(** The value of a member. *)
Definition member (v : V) (k : bytes) : option V :=
  match alookup k (object_of v) with Some (_, x) => Some x | None => None end.
Definition names (v : V) : list bytes := map fst (object_of v).
Definition object (v : V) : Prop := (exists i kvs lo, v = VObj i kvs lo) /\ NoDup (names v).

(** What a call makes of the members. *)
Definition changed (f : bytes -> option V) (a : ocall) : bytes -> option V :=
  match a with
  | OSet k x => match x with
                | VNil | VNotExist => f
                | _ => fun k' => if beqb k k' then Some x else f k'
                end
  | ODelete k => fun k' => if beqb k k' then None else f k'
  end.
Definition is_members (v : V) (f : bytes -> option V) : Prop := forall k, member v k = f k.

Definition told (t : list orecord) : list (bytes * V) := map (fun r => (snd (fst r), snd r)) t.

(** As [replay]. *)
Inductive oreplay {S} (cb : ocallback S) : S -> (bytes -> option V) -> list orecord -> (bytes -> option V) -> Prop :=
| OR_end st f : oreplay cb st f [] f
| OR_stop st f w k x st' calls : is_members w f -> cb st w k x = (st', calls, false) ->
    oreplay cb st f [(w, k, x)] (fold_left changed calls f)
| OR_go st f w k x st' calls t f' : is_members w f -> cb st w k x = (st', calls, true) ->
    oreplay cb st' (fold_left changed calls f) t f' -> oreplay cb st f ((w, k, x) :: t) f'.

(** The callback deletes nothing; the callback makes no new member. *)
Definition never_deletes {S} (cb : ocallback S) : Prop :=
  forall st w k x, Forall (fun a => exists k y, a = OSet k y) (snd (fst (cb st w k x))).
Inductive no_new : (bytes -> option V) -> list ocall -> Prop :=
| NN_nil f : no_new f []
| NN_delete f k r : no_new (changed f (ODelete k)) r -> no_new f (ODelete k :: r)
| NN_set f k x r : f k <> None -> no_new (changed f (OSet k x)) r -> no_new f (OSet k x :: r).
Definition makes_no_new {S} (cb : ocallback S) : Prop :=
  forall st w k x, no_new (member w) (snd (fst (cb st w k x))).

(** v.RangeObjects(func(k string, c *V) bool { if p(k, c) { v.Delete(k) }; return true }) *)
Definition deleting_members (p : bytes -> V -> bool) : ocallback unit :=
  fun _ _ k x => (tt, if p k x then [ODelete k] else [], true).
