(** Specification of paths: what a sequence of parameters addresses in a value,
    and what it means that a value was changed at one place only. *)
From Verif Require Import Base Float64 Value Path.

(** A parameter that is not a slice. *)
Definition plain (p : param) : Prop := match p with PSlice _ => False | _ => True end.

(** The index a parameter of an integer type stands for: its value, converted to
    int, which wraps for unsigned values of 2^63 and more. *)
Definition index_value (p : param) : option Z :=
  match p with
  | PInt i => Some i
  | PUint u => Some (wrap_i64 u)
  | _ => None
  end.

(** Index [i] refers to the element between [a] and [b]: counted from the start,
    or from the end if negative. *)
Definition refers (i : Z) (a b : list V) : Prop :=
  i = Z.of_nat (List.length a) \/ i = - Z.of_nat (S (List.length b)).

(** [leads v ps hs c]: following the parameters [ps] from [v] one arrives at [c],
    which sits at place [hs]. *)
Inductive leads : V -> list param -> list hop -> V -> Prop :=
| leads_here v : leads v [] [] v
| leads_key i kvs lo k id x ps hs c :
    In (k, (id, x)) kvs -> leads x ps hs c ->
    leads (VObj i kvs lo) (PStr k :: ps) (HKey k :: hs) c
| leads_elem a x b p i ps hs c :
    index_value p = Some i -> refers i a b -> leads x ps hs c ->
    leads (VArr (a ++ x :: b)) (p :: ps) (HIdx (List.length a) :: hs) c.

(** [changed R hs v v']: [v'] is [v] except that the value at place [hs], say
    [d], is replaced by some [d'] with [R d d'].  All other members, elements
    and fields are the same. *)
Inductive changed (R : V -> V -> Prop) : list hop -> V -> V -> Prop :=
| changed_here v v' : R v v' -> changed R [] v v'
| changed_key i a k id x x' b lo hs :
    changed R hs x x' ->
    changed R (HKey k :: hs) (VObj i (a ++ (k, (id, x)) :: b) lo) (VObj i (a ++ (k, (id, x')) :: b) lo)
| changed_elem a x x' b hs :
    changed R hs x x' ->
    changed R (HIdx (List.length a) :: hs) (VArr (a ++ x :: b)) (VArr (a ++ x' :: b)).

(** Every object inside has one entry per name, as a Go map has. *)
Fixpoint maps_ok (v : V) : Prop :=
  match v with
  | VArr l => (fix go (l : list V) : Prop :=
                 match l with [] => True | x :: r => maps_ok x /\ go r end) l
  | VObj _ kvs _ => NoDup (map fst kvs) /\
                 (fix go (l : list (bytes * (Z * V))) : Prop :=
                    match l with [] => True | (_, (_, x)) :: r => maps_ok x /\ go r end) kvs
  | _ => True
  end.

(** No nil pointer inside. *)
Fixpoint no_nil (v : V) : Prop :=
  match v with
  | VNil => False
  | VArr l => (fix go (l : list V) : Prop :=
                 match l with [] => True | x :: r => no_nil x /\ go r end) l
  | VObj _ kvs _ => (fix go (l : list (bytes * (Z * V))) : Prop :=
                    match l with [] => True | (_, (_, x)) :: r => no_nil x /\ go r end) kvs
  | _ => True
  end.

(** *** What Set does *)

(** The member [k] of an object becomes [c] and gets the next number in the
    order of setting; the other members stay. *)
Definition member_set (k : bytes) (c : V) (v v' : V) : Prop :=
  exists i kvs lo i' kvs' lo',
    v = VObj i kvs lo /\ v' = VObj i' kvs' lo' /\
    i' = wrap_u32 (i + 1) /\
    NoDup (map fst kvs') /\
    In (k, (i', c)) kvs' /\
    forall k' e, k' <> k -> (In (k', e) kvs' <-> In (k', e) kvs).

Definition elem_replaced (i : Z) (c : V) (v v' : V) : Prop :=
  exists a x b, v = VArr (a ++ x :: b) /\ v' = VArr (a ++ c :: b) /\ refers i a b.

Definition elem_appended (c : V) (v v' : V) : Prop :=
  exists l, v = VArr l /\ v' = VArr (l ++ [c]).

(** A fresh container for the rest of a path: one object per name, one array
    per index 0. *)
Inductive built : list param -> V -> V -> Prop :=
| built_here c : built [] c c
| built_key k ps c w : built ps c w -> built (PStr k :: ps) c (VObj 1 [(k, (1, w))] None)
| built_elem p ps c w : index_value p = Some 0 -> built ps c w -> built (p :: ps) c (VArr [w]).

(** [writes p ps c d d']: in the container [d] the parameter [p] is written, with
    [ps] the parameters that follow and [c] the value to store. *)
Inductive writes : param -> list param -> V -> V -> V -> Prop :=
| writes_member k c d d' : member_set k c d d' -> writes (PStr k) [] c d d'
| writes_elem p i c d d' : index_value p = Some i -> elem_replaced i c d d' -> writes p [] c d d'
| writes_end p c l d' :
    index_value p = Some (Z.of_nat (List.length l)) -> elem_appended c (VArr l) d' ->
    writes p [] c (VArr l) d'
| writes_new_member k q ps c w d d' :
    (forall hs x, ~ leads d [PStr k] hs x) -> built (q :: ps) c w -> member_set k w d d' ->
    writes (PStr k) (q :: ps) c d d'
| writes_new_elem p i q ps c w d d' :
    index_value p = Some i -> (forall hs x, ~ leads d [p] hs x) -> built (q :: ps) c w ->
    elem_appended w d d' ->
    writes p (q :: ps) c d d'.

(** The document [v'] is [v] after writing [c] at the path [ps]: everything that
    exists of the path is followed, the next parameter is written, the rest is
    built fresh. *)
Definition set_outcome (v : V) (ps : list param) (c v' : V) : Prop :=
  exists ps1 p ps2 hs d, ps = ps1 ++ p :: ps2 /\ leads v ps1 hs d /\
    changed (fun x x' => x = d /\ writes p ps2 c x x') hs v v'.

(** Along the path no array index lies beyond the end of its array. *)
Definition in_bounds (v : V) (ps : list param) : Prop :=
  forall ps1 p ps2 hs l i, ps = ps1 ++ p :: ps2 -> leads v ps1 hs (VArr l) ->
    index_value p = Some i -> - Z.of_nat (List.length l) <= i <= Z.of_nat (List.length l).

(** *** Places *)
Fixpoint is_prefix (a b : list hop) : Prop :=
  match a, b with
  | [], _ => True
  | x :: a', y :: b' => x = y /\ is_prefix a' b'
  | _ :: _, [] => False
  end.

(** What sits at a place. *)
Inductive sits : V -> list hop -> V -> Prop :=
| sits_here v : sits v [] v
| sits_key i kvs lo k id x hs c : In (k, (id, x)) kvs -> sits x hs c -> sits (VObj i kvs lo) (HKey k :: hs) c
| sits_elem a x b hs c : sits x hs c -> sits (VArr (a ++ x :: b)) (HIdx (List.length a) :: hs) c.

Definition unrelated (a b : list hop) : Prop := ~ is_prefix a b /\ ~ is_prefix b a.

(** Indexes counted from the start. *)
Definition from_start (p : param) : Prop :=
  match index_value p with Some i => 0 <= i | None => True end.

(** The place a path without negative indexes names, in any document. *)
Definition hop_of (p : param) : hop :=
  match p with
  | PStr k => HKey k
  | PInt i => HIdx (Z.to_nat i)
  | PUint u => HIdx (Z.to_nat (wrap_i64 u))
  | _ => HIdx 0
  end.
Definition key_or_index (p : param) : Prop :=
  match p with PStr _ | PInt _ | PUint _ => True | _ => False end.
Definition place_of (ps : list param) : list hop := map hop_of ps.

(** When Set can succeed. *)
Definition creatable (p : param) : Prop := (exists k, p = PStr k) \/ index_value p = Some 0.

Inductive settable : V -> list param -> Prop :=
| settable_member i kvs lo k : settable (VObj i kvs lo) [PStr k]
| settable_elem l p i :
    index_value p = Some i -> - Z.of_nat (List.length l) <= i <= Z.of_nat (List.length l) ->
    settable (VArr l) [p]
| settable_into_key i kvs lo k id x q r :
    In (k, (id, x)) kvs -> settable x (q :: r) -> settable (VObj i kvs lo) (PStr k :: q :: r)
| settable_into_elem a x b p i q r :
    index_value p = Some i -> refers i a b -> settable x (q :: r) ->
    settable (VArr (a ++ x :: b)) (p :: q :: r)
| settable_new_key i kvs lo k q r :
    (forall id x, ~ In (k, (id, x)) kvs) -> Forall creatable (q :: r) ->
    settable (VObj i kvs lo) (PStr k :: q :: r)
| settable_new_elem l p i q r :
    index_value p = Some i -> ~ (- Z.of_nat (List.length l) <= i < Z.of_nat (List.length l)) ->
    Forall creatable (q :: r) -> settable (VArr l) (p :: q :: r).

(** The document without the index kept for caseless access, which is no part
    of what a document holds. *)
Fixpoint forget (v : V) : V :=
  match v with
  | VArr l => VArr (map forget l)
  | VObj i kvs _ => VObj i (map (fun e => (fst e, (fst (snd e), forget (snd (snd e))))) kvs) None
  | _ => v
  end.

(** *** What the other edits do *)
Definition added_before (c : V) (i : Z) (v v' : V) : Prop :=
  exists a e b, v = VArr (a ++ e :: b) /\ refers i a b /\ v' = VArr (a ++ c :: e :: b).
Definition added_after (c : V) (i : Z) (v v' : V) : Prop :=
  exists a e b, v = VArr (a ++ e :: b) /\ refers i a b /\ v' = VArr (a ++ e :: c :: b).

Inductive removed : param -> V -> V -> Prop :=
| removed_member i a k e b lo lo' :
    ~ In k (map fst (a ++ b)) ->
    removed (PStr k) (VObj i (a ++ (k, e) :: b) lo) (VObj i (a ++ b) lo')
| removed_elem a e b p i :
    index_value p = Some i -> refers i a b ->
    removed p (VArr (a ++ e :: b)) (VArr (a ++ b)).

(** Along the path an object is reached that has no member of the next name. *)
Definition missing_member (v : V) (ps : list param) : Prop :=
  exists ps1 k ps2 hs i kvs lo, ps = ps1 ++ PStr k :: ps2 /\ leads v ps1 hs (VObj i kvs lo) /\
    ~ In k (map fst kvs).

Definition added (after : bool) := if after then added_after else added_before.
Definition end_added (front : bool) (c : V) (l : list V) : list V := if front then c :: l else l ++ [c].

(** *** How calls end: with a result or an error, not with a panic *)
Definition ends {A} (r : res A) : Prop := match r with Ok _ | Err _ => True | _ => False end.
Definition failed {A} (r : res A) : Prop := forall a, r <> Ok a.
