(** A document stays finite unless it is put inside itself (C63). *)
From Verif Require Import Base Utf8 Float64 Value Scan Unmarshal Opt Marshal Access Path Edit Heap SpecHeap SpecPath SpecFinite
  FiniteProof FiniteEntry FiniteExamples ExampleWorld.
Open Scope Z_scope.

(** *** One call *)

(** Set, Insert and Append: the receiver stays finite exactly when the value was not
    put into a container inside that value; then every other document that was finite
    stays so. *)
Theorem C63_put_exactly : forall (E : Env) (W : World) h k h1 r c, sound h -> Forall (valid h) (operands k) ->
  put_in k = Some c -> bounded h (receiver k) -> bounded h c -> perform E W h k = (h1, r) ->
  (bounded h1 (receiver k) <-> ~ closes h h1 c) /\
  (~ closes h h1 c -> forall p, valid h p -> bounded h p -> bounded h1 p).
Proof. exact put_exactly. Qed.
Print Assumptions C63_put_exactly.

(** Documents that have nothing in common can always be put into each other. *)
Theorem C63_apart : forall (E : Env) (W : World) h k h1 r c, sound h -> Forall (valid h) (operands k) ->
  put_in k = Some c -> bounded h (receiver k) -> bounded h c -> perform E W h k = (h1, r) ->
  (forall ks js x, walk h (receiver k) ks x -> walk h c js x -> False) ->
  forall p, valid h p -> bounded h p -> bounded h1 p.
Proof. exact put_kept. Qed.
Print Assumptions C63_apart.

(** A value that contains the document (or is it) never can: after the call, if it
    returns no error, neither is finite. *)
Theorem C63_inside : forall (E : Env) (W : World) h k h1 z c js, sound h -> perform E W h k = (h1, Ok z) ->
  put_in k = Some c -> walk h c js (receiver k) ->
  ~ bounded h1 (receiver k) /\ ~ bounded h1 c /\ forall t, ~ shows h1 (receiver k) t.
Proof. exact put_inside. Qed.
Print Assumptions C63_inside.

(** All other calls leave finite documents finite. *)
Theorem C63_others : forall (E : Env) (W : World) h k h1 r, sound h -> Forall (valid h) (operands k) ->
  put_in k = None -> perform E W h k = (h1, r) -> forall p, valid h p -> bounded h p -> bounded h1 p.
Proof. exact other_bounded. Qed.
Print Assumptions C63_others.

(** "Unless the value contains the document" is not the condition: v has the object A
    under "a", and v.Set(A).At("a", "x") puts A into A. *)
Theorem C63_contains_refuted : exists (E : Env) (W : World) h k h1 r c, sound h /\ Forall (valid h) (operands k) /\
  put_in k = Some c /\ bounded h (receiver k) /\ bounded h c /\ perform E W h k = (h1, r) /\
  (forall js, ~ walk h c js (receiver k)) /\ ~ bounded h1 (receiver k).
Proof. exact contains_refuted. Qed.
Print Assumptions C63_contains_refuted.

(** *** Series of calls *)

(** Calls with the pointers held, none of which closes a document: every pointer held
    in the end is a document that has contents.  (Elements and members may be shared
    by several of them.) *)
Theorem C63_series : forall (E : Env) (W : World) h a h2 a2, careful E W h a h2 a2 -> sound h -> one_entry h ->
  Forall (valid h) a -> Forall (fun p => exists t, shows h p t) a -> Forall (fun p => exists t, shows h2 p t) a2.
Proof. exact careful_shows. Qed.
Print Assumptions C63_series.

Theorem C63_from_nothing : forall (E : Env) (W : World) h2 a2, careful E W [] [] h2 a2 ->
  Forall (fun p => exists t, shows h2 p t) a2.
Proof. exact careful_new. Qed.
Print Assumptions C63_from_nothing.

(** No call gives an object two entries of one name. *)
Theorem C63_one_entry : forall (E : Env) (W : World) h k h1 r, one_entry h -> (forall v, k = KNew v -> maps_ok v) ->
  perform E W h k = (h1, r) -> one_entry h1.
Proof. exact perform_tidy. Qed.
Print Assumptions C63_one_entry.

(** *** Finite documents *)

(** A document is finite exactly when it has contents. *)
Theorem C63_finite : forall h p, sound h -> one_entry h -> valid h p -> (bounded h p <-> exists t, shows h p t).
Proof. exact bounded_iff. Qed.
Print Assumptions C63_finite.

(** Get on a document with contents, whatever it shares: what it returns is the value
    that Get finds in the contents, or the same error; nothing is changed. *)
Theorem C63_get_shared : forall (E : Env) (W : World) h p t first others, shows h p t ->
  fst (h_get E W false h p first others) = h /\
  match snd (h_get E W false h p first others), snd (get E W false t first others) with
  | Ok q, Ok u => shows h q u
  | Err e, Err e' => e = e'
  | Panic, Panic | Fuel, Fuel => True
  | _, _ => False
  end.
Proof. exact get_shown. Qed.
Print Assumptions C63_get_shared.

(** *** Examples *)

(** {"a":{"b":[1,2]},"c":"s"}: 5 the root, 3 the object under "a", 2 the array. *)
Example C63_instance_memory : sound mem /\ one_entry mem /\ shows mem (Some 5%nat) doc.
Proof. exact mem_facts. Qed.
(** The array is put into the root a second time: shared, and finite. *)
Example C63_instance_shared :
  let h1 := fst (perform env0 world1 mem (KSet (Some 5%nat) (Some 2%nat) (PStr (bs "d")) [])) in
  shows h1 (Some 5%nat) (VObj 3 [(bs "a", (1, VObj 1 [(bs "b", (1, VArr [new_int64 1; new_int64 2]))] None)); (bs "c", (2, VStr (bs "s")));
    (bs "d", (3, VArr [new_int64 1; new_int64 2]))] None) /\
  snd (h_get env0 world1 false h1 (Some 5%nat) (PStr (bs "d")) [PInt 1]) = Ok (Some 1%nat) /\
  snd (h_get env0 world1 false h1 (Some 5%nat) (PStr (bs "a")) [PStr (bs "b"); PInt 1]) = Ok (Some 1%nat).
Proof. exact shared_facts. Qed.
(** The root is appended to the array inside it: the copy of it does not return. *)
Example C63_instance_closed :
  let p := perform env0 world1 mem (KAppend false (Some 5%nat) (Some 5%nat) [PStr (bs "a"); PStr (bs "b")]) in
  snd p = Ok (Some 5%nat) /\ walk mem (Some 5%nat) [] (Some 5%nat) /\ snd (h_import (fst p) (Some 5%nat)) = Fuel.
Proof. vm_compute. repeat split. constructor. Qed.
(** A series from nothing: an object, an array, the array put into the object twice. *)
Example C63_instance_series : exists h2 a2, careful env0 world1 [] [] h2 a2 /\
  snd (h_get env0 world1 false h2 (Some 0%nat) (PStr (bs "x")) [PInt 0]) = Ok (Some 1%nat) /\
  snd (h_get env0 world1 false h2 (Some 0%nat) (PStr (bs "y")) [PInt 0]) = Ok (Some 1%nat) /\ In (Some 0%nat) a2.
Proof. exact series_facts. Qed.
