(** Values in memory: independent copies (C28), and values that stay inside their
    document (C45). *)
From Verif Require Import Base Float64 Value Marshal Access SpecJson SpecValue Path Edit SpecPath Heap SpecHeap HeapClaims
  GoValue Import ExampleWorld.

(** A document in an otherwise empty memory: {"a":{"b":[1,2]},"c":"s"} is at 5, the
    object {"b":[1,2]} at 3, the array at 2. *)
Definition doc0 : V :=
  VObj 2 [(bs "a", (1, VObj 1 [(bs "b", (1, VArr [new_int64 1; new_int64 2]))] None)); (bs "c", (2, VStr (bs "s")))] None.
Definition mem0 : heap := fst (h_build [] doc0).
Example mem0_root : snd (h_build [] doc0) = Some 5%nat.
Proof. reflexivity. Qed.

(** *** C28 *)

(** Import of a *V: all that is reachable from the copy is new, nothing that
    existed is changed, and the copy shows the same value (up to the index for
    caseless access).  Nil pointers and structs of type Unknown inside the value
    are the exception: see the example below. *)
Theorem C28_copy_equal : forall h a v, shows h (Some a) v ->
  exists h1 q, h_import h (Some a) = (h1, Ok q) /\
    (forall b, (b < List.length h)%nat -> nth_error h1 b = nth_error h b) /\
    (forall x, reaches h1 q (Some x) -> (List.length h <= x)%nat) /\
    exists w, shows h1 q w /\ (~ stray_at v -> forget w = forget v) /\ (json_typed v -> json_typed w).
Proof. exact import_copy. Qed.
Print Assumptions C28_copy_equal.

(** Two parties, one with any pointers that existed before the Import, one with
    the copy, make any calls in any order.  They never come to share anything, and
    no call of one changes what any pointer of the other shows. *)
Theorem C28_independent : forall (E : Env) (W : World) h p h1 q A h2 A2 B2,
  sound h -> h_import h p = (h1, Ok q) -> Forall (valid h) A -> play E W h1 A [q] h2 A2 B2 ->
  (forall a b x, In a A2 -> In b B2 -> reaches h2 a (Some x) -> reaches h2 b (Some x) -> False) /\
  (forall k h3 r, incl (operands k) A2 -> perform E W h2 k = (h3, r) ->
     forall b t, In b B2 -> shows h2 b t -> shows h3 b t) /\
  (forall k h3 r, incl (operands k) B2 -> perform E W h2 k = (h3, r) ->
     forall a t, In a A2 -> shows h2 a t -> shows h3 a t).
Proof. exact import_apart. Qed.
Print Assumptions C28_independent.

(** Whatever happens to the original, the copy shows what it showed ... *)
Theorem C28_original_changes : forall (E : Env) (W : World) h p h1 q A h2 A2 t,
  sound h -> h_import h p = (h1, Ok q) -> Forall (valid h) A -> run E W h1 A h2 A2 -> shows h1 q t -> shows h2 q t.
Proof. exact import_then_left. Qed.
Print Assumptions C28_original_changes.

(** ... and whatever happens to the copy, all other documents do. *)
Theorem C28_copy_changes : forall (E : Env) (W : World) h p h1 q h2 B2 a t,
  sound h -> h_import h p = (h1, Ok q) -> valid h a -> run E W h1 [q] h2 B2 -> shows h a t -> shows h2 a t.
Proof. exact import_then_right. Qed.
Print Assumptions C28_copy_changes.

(** Import comes back exactly if the value is a finite tree. *)
Theorem C28_import_returns : forall h a, sound h -> (a < List.length h)%nat ->
  ((exists h1 q, h_import h (Some a) = (h1, Ok q)) <-> exists v, shows h (Some a) v).
Proof. exact import_iff. Qed.
Print Assumptions C28_import_returns.

(** The document is copied to 11; a member is set in the original, an element
    appended to the array of the copy. *)
Example C28_instance :
  let E := env0 in let W := world1 in
  let h1 := fst (h_import mem0 (Some 5%nat)) in
  let h2 := fst (perform E W h1 (KNew VNull)) in
  let h3 := fst (perform E W h2 (KSet (Some 5%nat) (Some 12%nat) (PStr (bs "c")) [])) in
  let h4 := fst (perform E W h3 (KNew (VBool true))) in
  let h5 := fst (perform E W h4 (KAppend false (Some 11%nat) (Some 13%nat) [PStr (bs "a"); PStr (bs "b")])) in
  snd (h_import mem0 (Some 5%nat)) = Ok (Some 11%nat) /\
  snd (perform E W h3 (KGet false (Some 5%nat) (PStr (bs "c")) [])) = Ok (Some 12%nat) /\
  nth_error h5 2 = Some (CArr [Some 0; Some 1])%nat /\
  snd (perform E W h5 (KGet false (Some 11%nat) (PStr (bs "c")) [])) = Ok (Some 10%nat) /\
  nth_error h5 10 = Some (CStr (bs "s")) /\
  nth_error h5 8 = Some (CArr [Some 6; Some 7; Some 13])%nat.
Proof. vm_compute. repeat split. Qed.

(** A nil pointer that was appended to an array is copied to a value that does not
    exist; a value that is inside itself cannot be copied. *)
Example C28_nil_inside :
  shows [CArr [None]] (Some 0%nat) (VArr [VNil]) /\
  h_import [CArr [None]] (Some 0%nat) = ([CArr [None]; CNotExist; CArr [Some 1%nat]], Ok (Some 2%nat)).
Proof.
  split; [|reflexivity]. exists [0%nat]. eapply reads_arr; [reflexivity|]. apply (reads_elem _ None VNil [] [] [] []); constructor.
Qed.
Example C28_cycle :
  let h := fst (perform env0 world1 mem0 (KSet (Some 5%nat) (Some 5%nat) (PStr (bs "a")) [PStr (bs "x")])) in
  snd (h_import h (Some 5%nat)) = Fuel /\ exists q, snd (h_import h (Some 2%nat)) = Ok q.
Proof. vm_compute. split; [reflexivity|]. eexists. reflexivity. Qed.

(** *** C45 *)

(** Get makes nothing, changes nothing, and what it returns is a child inside the
    document. *)
Theorem C45_get : forall (E : Env) (W : World) caseless h v first others h' r,
  h_get E W caseless h v first others = (h', r) ->
  untouched h h' /\ List.length h' = List.length h /\
  forall q, r = Ok q -> exists ks, ks <> [] /\ walk h v ks q.
Proof. exact get_inside. Qed.
Print Assumptions C45_get.

(** Set returns the very value it was given, and this is now inside the document:
    one container [x] of the document got a new child at [k], which is the value or
    the first of a chain of new containers that ends there.  If there was a child
    before, it was the one Get returns for that path.  No other container changed. *)
Theorem C45_set : forall (E : Env) (W : World) h v c first others h' r,
  h_set E h v c first others = (h', r) ->
  (forall q, r = Ok q -> q = c /\ exists ks x k q0 ls, walk h v ks x /\ alters h h' x (EPut k q0) /\
     new_chain (List.length h) h' q0 ls c /\ step h' x k q0 /\ walk h' q0 ls c /\
     forall y, step h x k y -> h_get E W false h v first others = (h, Ok y)) /\
  ((forall q, r <> Ok q) -> untouched h h').
Proof. exact set_inside. Qed.
Print Assumptions C45_set.

Theorem C45_insert : forall (E : Env) (W : World) after h v c first others h' r,
  h_insert E W after h v c first others = (h', r) ->
  (forall q, r = Ok q -> q = c /\ exists ks x n, walk h v ks x /\ alters h h' x (EIns n c) /\ step h' x (HIdx n) c) /\
  ((forall q, r <> Ok q) -> untouched h h').
Proof. exact insert_inside. Qed.
Print Assumptions C45_insert.

Theorem C45_append : forall (E : Env) (W : World) front h v c params h' r, sound h ->
  h_append E W front h v c params = (h', r) ->
  (forall q, r = Ok q -> q = c /\ exists ks x, walk h v ks x /\
     ((exists n, alters h h' x (EIns n c) /\ step h' x (HIdx n) c) \/
      (exists k q0 ls, alters h h' x (EPut k q0) /\ (forall y, ~ step h x k y) /\ new_chain (List.length h) h' q0 ls c /\
                       ls <> [] /\ step h' x k q0 /\ walk h' q0 ls c))) /\
  ((forall q, r <> Ok q) -> untouched h h').
Proof. exact append_inside. Qed.
Print Assumptions C45_append.

Theorem C45_delete : forall (E : Env) (W : World) caseless h v first others h' r,
  h_delete E W caseless h v first others = (h', r) ->
  (r = Ok tt -> exists ks x k q, walk h v ks x /\ step h x k q /\ alters h h' x (EDel k)) /\
  (r <> Ok tt -> untouched h h').
Proof. exact delete_inside. Qed.
Print Assumptions C45_delete.

(** What a document shows at a place is what the value there shows. *)
Theorem C45_seen : forall h v t ks q, shows h v t -> walk h v ks q -> exists u, shows h q u /\ sits t ks u.
Proof. exact seen_at. Qed.
Print Assumptions C45_seen.

(** Mutating a value inside a document, by any sequence of calls with pointers that
    lead in the document only to what is below the value: it stays at its place,
    Get with the same path returns it, and the document shows at that place what
    the value shows. *)
Theorem C45_mutate_inside : forall (E : Env) (W : World) h v t q A h2 A2,
  sound h -> shows h v t -> Forall (valid h) A -> below h v q A -> run E W h A h2 A2 ->
  (forall ks, walk h v ks q -> walk h2 v ks q) /\
  (forall first others, h_get E W false h v first others = (h, Ok q) -> h_get E W false h2 v first others = (h2, Ok q)) /\
  (forall t2 ks, walk h v ks q -> shows h2 v t2 -> exists u, shows h2 q u /\ sits t2 ks u).
Proof. exact mutate_inside. Qed.
Print Assumptions C45_mutate_inside.

(** Any sequence of calls through any pointers, in any memory (shared values and
    cycles included), leaves the value in the document, as deep as it was, unless
    a call takes away a child on the way to it. *)
Theorem C45_not_detached : forall (E : Env) (W : World) v q h h2, spares E W v q h h2 -> sound h ->
  forall ks, walk h v ks q -> exists ks', List.length ks' = List.length ks /\ walk h2 v ks' q.
Proof. exact spares_keeps. Qed.
Print Assumptions C45_not_detached.

(** The object at "a" is taken out of the document and given a member; then an
    element comes in front of the array; the second element is now the third. *)
Example C45_instance :
  let E := env0 in let W := world1 in
  let h1 := fst (perform E W mem0 (KNew VNull)) in
  let h2 := fst (perform E W h1 (KSet (Some 3%nat) (Some 6%nat) (PStr (bs "x")) [PStr (bs "y")])) in
  let h3 := fst (perform E W h2 (KInsert false (Some 5%nat) (Some 6%nat) (PStr (bs "a")) [PStr (bs "b"); PInt 0])) in
  h_get E W false mem0 (Some 5%nat) (PStr (bs "a")) [] = (mem0, Ok (Some 3%nat)) /\
  snd (h_get E W false h2 (Some 5%nat) (PStr (bs "a")) [PStr (bs "x"); PStr (bs "y")]) = Ok (Some 6%nat) /\
  snd (h_get E W false mem0 (Some 5%nat) (PStr (bs "a")) [PStr (bs "b"); PInt 1]) = Ok (Some 1%nat) /\
  snd (h_get E W false h3 (Some 5%nat) (PStr (bs "a")) [PStr (bs "b"); PInt 2]) = Ok (Some 1%nat).
Proof. vm_compute. repeat split. Qed.
(** The hypotheses hold there. *)
Example C45_instance_hypotheses :
  sound mem0 /\ shows mem0 (Some 5%nat) doc0 /\ below mem0 (Some 5%nat) (Some 3%nat) [Some 3%nat].
Proof.
  split; [|split].
  - intros a c H. do 6 (destruct a as [|a]; [injection H as <-; repeat constructor|]). destruct a; discriminate.
  - pose proof (HeapCopy.build_shows [] doc0) as (s & H & _). exists s. exact H.
  - intros p x [<-|[]] Hr _ _. exact Hr.
Qed.
