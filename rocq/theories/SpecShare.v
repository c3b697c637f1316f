(** Specification of documents in memory that share nothing: a document as its
    contents, and a series of requests to it. *)
From Verif Require Import Base Utf8 Float64 Value Scan Unmarshal Opt Marshal Access Path Edit Iter Heap SpecHeap.

(** The struct at [p] with all below it is the tree [v], and no struct is met twice on
    the way: nothing is in two places, nothing is inside itself. *)
Definition unshared (h : heap) (p : ptr) (v : V) (s : list nat) : Prop := reads h p v s /\ NoDup s.

(** The document at [p], which lay in [s], is now [v']; nothing else that existed
    changed.  It lies where it lay, in [t], where the value handed in lay, or in new
    structs. *)
Definition turned (h h' : heap) (p : ptr) (s t : list nat) (v' : V) : Prop :=
  (forall a, (a < List.length h)%nat -> ~ In a s -> nth_error h' a = nth_error h a) /\
  exists s', unshared h' p v' s' /\ forall a, In a s' -> In a s \/ In a t \/ (List.length h <= a)%nat.

(** Two results are the same: the same error, or two values in relation. *)
Definition same_result {A B} (R : A -> B -> Prop) (r : res A) (r' : res B) : Prop :=
  match r, r' with
  | Ok a, Ok b => R a b
  | Err e, Err e' => e = e'
  | Panic, Panic | Fuel, Fuel => True
  | _, _ => False
  end.

(** The tree at a pointer, down to the given depth. *)
Fixpoint view_f (n : nat) (h : heap) (p : ptr) : V :=
  match n with
  | O => VNil
  | S n =>
    match deref h p with
    | None => VNil
    | Some CNotExist => VNotExist
    | Some (CStr s) => VStr s
    | Some (CNum x src) => VNum x src
    | Some (CBool b) => VBool b
    | Some CNull => VNull
    | Some CUnknown => VUnknown
    | Some (CArr l) => VArr (map (view_f n h) l)
    | Some (CObj i kvs lo) => VObj i (map (fun e => (fst e, (fst (snd e), view_f n h (snd (snd e))))) kvs) lo
    end
  end.
(** No tree in a memory is deeper than there are structs. *)
Definition view (h : heap) : ptr -> V := view_f (S (List.length h)) h.

(** A function that compares two elements by what they show. *)
Definition by_sight (less : V -> V -> bool) : heap -> ptr -> ptr -> bool :=
  fun h p q => less (view h p) (view h q).

(** A request to a document.  The value that is set, inserted or appended is given by
    its contents. *)
Inductive request :=
| RGet (caseless : bool) (first : param) (others : list param)
| RSet (w : V) (first : param) (others : list param)
| RInsert (after : bool) (w : V) (first : param) (others : list param)
| RAppend (front : bool) (w : V) (params : list param)
| RDelete (caseless : bool) (first : param) (others : list param)
| RSort (less : option (V -> V -> bool))
| RLoad (b : bytes).

(** The calls: first the new value is made, then it is handed over. *)
Definition with_new (E : Env) (W : World) (h : heap) (w : V) (k : ptr -> call) : heap * res ptr :=
  let '(h1, c) := h_build h w in perform E W h1 (k c).
Definition ask (E : Env) (W : World) (h : heap) (p : ptr) (q : request) : heap * res ptr :=
  match q with
  | RGet caseless first others => perform E W h (KGet caseless p first others)
  | RSet w first others => with_new E W h w (fun c => KSet p c first others)
  | RInsert after w first others => with_new E W h w (fun c => KInsert after p c first others)
  | RAppend front w params => with_new E W h w (fun c => KAppend front p c params)
  | RDelete caseless first others => perform E W h (KDelete caseless p first others)
  | RSort less => perform E W h (KSort p (option_map by_sight less))
  | RLoad b => perform E W h (KLoad p b)
  end.

(** [tells h p qs ws h2]: the requests [qs] are made of the document at [p], one after
    the other; the results show [ws]; the memory is [h2] in the end. *)
Inductive tells (E : Env) (W : World) (p : ptr) : heap -> list request -> list (res V) -> heap -> Prop :=
| tells_end h : tells E W p h [] [] h
| tells_next h q qs r w ws h1 h2 :
    ask E W h p q = (h1, r) -> same_result (shows h1) r w -> tells E W p h1 qs ws h2 ->
    tells E W p h (q :: qs) (w :: ws) h2.

(** The same requests to a document that is its contents (Path.v, Edit.v, Iter.v,
    Unmarshal.v). *)
Definition answer (E : Env) (W : World) (v : V) (q : request) : V * res V :=
  match q with
  | RGet caseless first others => get E W caseless v first others
  | RSet w first others => set_at E v (arg_v w) first others
  | RInsert true w first others => insert_after E W v (arg_v w) first others
  | RInsert false w first others => insert_before E W v (arg_v w) first others
  | RAppend true w params => append_beginning E W v (arg_v w) params
  | RAppend false w params => append_end E W v (arg_v w) params
  | RDelete caseless first others =>
    let '(v', r) := delete_at E W caseless v first others in (v', let* _ := r in Ok VNil)
  | RSort less =>
    match sort_array W v less with
    | Ok v' => (v', Ok VNil)
    | Err e => (v, Err e) | Panic => (v, Panic) | Fuel => (v, Fuel)
    end
  | RLoad b => let '(v', r) := unmarshal_json E v b in (v', let* _ := r in Ok VNil)
  end.
Fixpoint answers (E : Env) (W : World) (v : V) (qs : list request) : V * list (res V) :=
  match qs with
  | [] => (v, [])
  | q :: r => let '(v1, w) := answer E W v q in
              let '(v2, ws) := answers E W v1 r in (v2, w :: ws)
  end.
