(** Specification of values in memory: what can be reached from where, what a
    document shows, and what it means that a call changed one container only. *)
From Verif Require Import Base Float64 Value Marshal Path Heap.

(** *** Steps and walks *)

(** The child of a container under a name or an index. *)
Definition kid (c : cell) (k : hop) : option ptr :=
  match c, k with
  | CArr l, HIdx n => nth_error l n
  | CObj _ kvs _, HKey k => option_map snd (alookup k kvs)
  | _, _ => None
  end.

Definition step (h : heap) (p : ptr) (k : hop) (q : ptr) : Prop :=
  exists c, deref h p = Some c /\ kid c k = Some q.

Inductive walk (h : heap) : ptr -> list hop -> ptr -> Prop :=
| walk_here p : walk h p [] p
| walk_step p k q ks r : step h p k q -> walk h q ks r -> walk h p (k :: ks) r.

(** The pointers a struct holds. *)
Definition pointers (c : cell) : list ptr :=
  match c with
  | CArr l => l
  | CObj _ kvs _ => map (fun e => snd (snd e)) kvs
  | _ => []
  end.

Inductive reaches (h : heap) : ptr -> ptr -> Prop :=
| reaches_here p : reaches h p p
| reaches_next p c q r : deref h p = Some c -> In q (pointers c) -> reaches h q r -> reaches h p r.

(** A pointer is nil or the address of a struct that exists, as is every pointer
    in Go. *)
Definition valid (h : heap) (p : ptr) : Prop :=
  match p with None => True | Some a => (a < List.length h)%nat end.
Definition sound (h : heap) : Prop :=
  forall a c, nth_error h a = Some c -> Forall (valid h) (pointers c).

(** *** What a document shows *)

Definition leaf (c : cell) (v : V) : Prop :=
  match c with
  | CNotExist => v = VNotExist
  | CStr s => v = VStr s
  | CNum n src => v = VNum n src
  | CBool b => v = VBool b
  | CNull => v = VNull
  | CUnknown => v = VUnknown
  | _ => False
  end.

(** [reads h p v s]: the struct at [p] with all below it is the tree [v]; [s] are the
    addresses met, an address as often as it is met. *)
Inductive reads (h : heap) : ptr -> V -> list nat -> Prop :=
| reads_nil : reads h None VNil []
| reads_leaf a c v : nth_error h a = Some c -> leaf c v -> reads h (Some a) v [a]
| reads_arr a l vs s :
    nth_error h a = Some (CArr l) -> reads_elems h l vs s -> reads h (Some a) (VArr vs) (a :: s)
| reads_obj a i kvs lo xs s :
    nth_error h a = Some (CObj i kvs lo) -> reads_members h kvs xs s ->
    reads h (Some a) (VObj i xs lo) (a :: s)
with reads_elems (h : heap) : list ptr -> list V -> list nat -> Prop :=
| reads_no_elem : reads_elems h [] [] []
| reads_elem p v s l vs t :
    reads h p v s -> reads_elems h l vs t -> reads_elems h (p :: l) (v :: vs) (s ++ t)
with reads_members (h : heap) : list (bytes * (Z * ptr)) -> list (bytes * (Z * V)) -> list nat -> Prop :=
| reads_no_member : reads_members h [] [] []
| reads_member k id p v s l vs t :
    reads h p v s -> reads_members h l vs t ->
    reads_members h ((k, (id, p)) :: l) ((k, (id, v)) :: vs) (s ++ t).

(** The document at [p] shows [v]. *)
Definition shows (h : heap) (p : ptr) (v : V) : Prop := exists s, reads h p v s.

(** A nil pointer or a struct of the type Unknown is in there. *)
Inductive stray_at : V -> Prop :=
| stray_nil : stray_at VNil
| stray_unknown : stray_at VUnknown
| stray_element l x : In x l -> stray_at x -> stray_at (VArr l)
| stray_member i (kvs : list kv) lo k id x : In (k, (id, x)) kvs -> stray_at x -> stray_at (VObj i kvs lo).

(** *** What a call changes *)

(** The same struct but for the index for caseless access, which is built on
    demand and is no part of what a document holds. *)
Definition same_struct (c c' : cell) : Prop :=
  match c, c' with
  | CObj i kvs _, CObj i' kvs' _ => i = i' /\ kvs = kvs'
  | _, _ => c = c'
  end.

(** Nothing changed in the structs that existed. *)
Definition untouched (h h' : heap) : Prop :=
  forall p c, deref h p = Some c -> exists c', deref h' p = Some c' /\ same_struct c c'.

(** A change of one container. *)
Inductive edit :=
| EPut (k : hop) (q : ptr)      (* the child at k becomes q, whether or not there was one *)
| EIns (n : nat) (q : ptr)      (* q comes to stand at index n, what follows moves up *)
| EDel (k : hop)                (* the child at k goes, in an array what follows moves down *)
| EPerm (f : nat -> nat)        (* the element at i goes to index f i *)
| EAll (c : cell).              (* everything is replaced *)

(** Where the child that was at a place is afterwards; [None] if it went. *)
Definition moved (e : edit) (k : hop) : option hop :=
  match e, k with
  | EPut k0 _, _ => match k0, k with
                    | HIdx a, HIdx b => if Nat.eqb a b then None else Some k
                    | HKey a, HKey b => if beqb a b then None else Some k
                    | _, _ => Some k
                    end
  | EIns n _, HIdx i => if (i <? n)%nat then Some k else Some (HIdx (S i))
  | EIns _ _, _ => Some k
  | EDel (HIdx n), HIdx i => if (i <? n)%nat then Some k else if Nat.eqb i n then None else Some (HIdx (i - 1))
  | EDel (HKey a), HKey b => if beqb a b then None else Some k
  | EDel _, _ => Some k
  | EPerm f, HIdx i => Some (HIdx (f i))
  | EPerm _, _ => Some k
  | EAll _, _ => None
  end.

(** The children that an edit brings in. *)
Definition brings (e : edit) (k : hop) (q : ptr) : Prop :=
  match e with
  | EPut k0 q0 => (k0, q0) = (k, q)
  | EIns n q0 => (HIdx n, q0) = (k, q)
  | EAll c => kid c k = Some q
  | _ => False
  end.

Definition same_kind (c c' : cell) : Prop :=
  match c, c' with
  | CObj _ _ _, CObj _ _ _ | CArr _, CArr _ => True
  | _, _ => False
  end.

(** After the edit the container has exactly the children that were not removed,
    at their places, and those brought in. *)
Definition edited (c c' : cell) (e : edit) : Prop :=
  match e with
  | EAll c0 => c' = c0
  | EPerm f => same_kind c c' /\
    forall i j, kid c (HIdx i) <> None -> kid c (HIdx j) <> None -> f i = f j -> i = j
  | _ => same_kind c c'
  end /\
  forall k' q, kid c' k' = Some q <->
    brings e k' q \/ exists k, kid c k = Some q /\ moved e k = Some k'.

(** The call changed the container at [x] and nothing else that existed. *)
Definition alters (h h' : heap) (x : ptr) (e : edit) : Prop :=
  (exists c c', deref h x = Some c /\ deref h' x = Some c' /\ edited c c' e) /\
  forall p c, p <> x -> deref h p = Some c -> exists c', deref h' p = Some c' /\ same_struct c c'.

(** A chain of containers that did not exist before, each with a single child,
    ending at [c]. *)
Inductive new_chain (n : nat) (h : heap) : ptr -> list hop -> ptr -> Prop :=
| chain_end c : new_chain n h c [] c
| chain_step a k q ks c :
    (n <= a)%nat -> step h (Some a) k q -> (forall k' q', step h (Some a) k' q' -> k' = k) ->
    new_chain n h q ks c -> new_chain n h (Some a) (k :: ks) c.

(** *** Two parties working side by side *)

(** The pointers a caller hands in. *)
Definition operands (k : call) : list ptr :=
  match k with
  | KNew _ => []
  | KGet _ v _ _ => [v]
  | KSet v c _ _ => [v; c]
  | KInsert _ v c _ _ => [v; c]
  | KAppend _ v c _ => [v; c]
  | KDelete _ v _ _ => [v]
  | KImport v => [v]
  | KSort v _ => [v]
  | KLoad v _ => [v]
  end.

Definition gained (r : res ptr) : list ptr := match r with Ok p => [p] | _ => [] end.

(** Two parties make calls in any order.  Each hands in only pointers it was given
    at the start or got back from its own calls. *)
Inductive play (E : Env) (W : World) : heap -> list ptr -> list ptr -> heap -> list ptr -> list ptr -> Prop :=
| play_end h a b : play E W h a b h a b
| play_left h a b k h1 r h2 a2 b2 :
    incl (operands k) a -> perform E W h k = (h1, r) ->
    play E W h1 (gained r ++ a) b h2 a2 b2 -> play E W h a b h2 a2 b2
| play_right h a b k h1 r h2 a2 b2 :
    incl (operands k) b -> perform E W h k = (h1, r) ->
    play E W h1 a (gained r ++ b) h2 a2 b2 -> play E W h a b h2 a2 b2.

(** One party makes calls, with pointers it was given at the start or got back. *)
Inductive run (E : Env) (W : World) : heap -> list ptr -> heap -> list ptr -> Prop :=
| run_end h a : run E W h a h a
| run_call h a k h1 r h2 a2 :
    incl (operands k) a -> perform E W h k = (h1, r) -> run E W h1 (gained r ++ a) h2 a2 -> run E W h a h2 a2.

(** *** Taking a value out of a document *)

(** The call took away a child that lies on a way from [v] to [q]. *)
Definition detaches (h h' : heap) (v q : ptr) : Prop :=
  exists x e ks k y js, alters h h' x e /\ walk h v ks x /\ step h x k y /\ walk h y js q /\ moved e k = None.

(** Calls through any pointers, none of which does that. *)
Inductive spares (E : Env) (W : World) (v q : ptr) : heap -> heap -> Prop :=
| spares_end h : spares E W v q h h
| spares_call h k h1 r h2 :
    Forall (valid h) (operands k) -> perform E W h k = (h1, r) -> ~ detaches h h1 v q ->
    spares E W v q h1 h2 -> spares E W v q h h2.

(** The pointers [A] lead, inside the document [v], only to what is below [q]. *)
Definition below (h : heap) (v q : ptr) (A : list ptr) : Prop :=
  forall p x, In p A -> reaches h p x -> reaches h v x -> x <> None -> reaches h q x.
