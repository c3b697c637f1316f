(** Specification of documents that do not contain themselves. *)
From Verif Require Import Base Float64 Value Marshal Path Heap SpecHeap SpecPath.

(** No walk through the document is longer than some number of steps. *)
Definition bounded (h : heap) (p : ptr) : Prop :=
  exists n, forall ks q, walk h p ks q -> (List.length ks <= n)%nat.

(** The call that led from [h] to [h'] put [c] into a container (at once, or as the
    end of a chain of new containers) that was inside [c]. *)
Definition closes (h h' : heap) (c : ptr) : Prop :=
  exists x e k q ls js, alters h h' x e /\ brings e k q /\ new_chain (List.length h) h' q ls c /\ walk h c js x.

(** Every object has one entry per name, as a Go map has. *)
Definition one_entry (h : heap) : Prop :=
  forall a i kvs lo, nth_error h a = Some (CObj i kvs lo) -> NoDup (map fst kvs).

(** The value that a call puts into a document. *)
Definition put_in (k : call) : option ptr :=
  match k with
  | KSet _ c _ _ | KInsert _ _ c _ _ | KAppend _ _ c _ => Some c
  | _ => None
  end.
Definition receiver (k : call) : ptr :=
  match k with
  | KSet v _ _ _ | KInsert _ v _ _ _ | KAppend _ v _ _ | KGet _ v _ _ | KDelete _ v _ _ | KImport v | KSort v _ | KLoad v _ => v
  | KNew _ => None
  end.

(** Calls with pointers that were given at the start or got back, none of which puts
    a value into a container inside that value.  A new document has one entry per
    name in each object (as all that the package makes or parses). *)
Inductive careful (E : Env) (W : World) : heap -> list ptr -> heap -> list ptr -> Prop :=
| careful_end h a : careful E W h a h a
| careful_call h a k h1 r h2 a2 :
    incl (operands k) a -> perform E W h k = (h1, r) ->
    (forall c, put_in k = Some c -> ~ closes h h1 c) -> (forall v, k = KNew v -> maps_ok v) ->
    careful E W h1 (gained r ++ a) h2 a2 -> careful E W h a h2 a2.
