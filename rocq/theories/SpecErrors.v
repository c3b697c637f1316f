(** Which error a call along a path gives: where it gets stuck, and why. *)
From Verif Require Import Base Float64 Value Path SpecPath.

(** What a parameter is not: a name, an index. *)
Definition no_name (p : param) : Prop := forall k, p <> PStr k.
Definition no_index (p : param) : Prop := index_value p = None.
(** Neither object nor array (and not a nil pointer). *)
Definition no_container (v : V) : Prop :=
  match v with VObj _ _ _ | VArr _ | VNil => False | _ => True end.
Definition within (i : Z) (l : list V) : Prop := - Z.of_nat (List.length l) <= i < Z.of_nat (List.length l).
(** nil in the place of an index is ErrParameterError; for any other thing that is no
    index the error is of no class. *)
Definition index_error (p : param) : err := match p with PNil => ErrParameterError | _ => EOther end.

(** Reading: the value [d] has nothing for the parameter [p]. *)
Inductive stuck : V -> param -> list param -> err -> Prop :=
| stuck_name i kvs lo k r : ~ In k (map fst kvs) -> stuck (VObj i kvs lo) (PStr k) r ErrNotFound
| stuck_range l p i r : index_value p = Some i -> ~ within i l -> stuck (VArr l) p r ErrOutOfRange
| stuck_no_name i kvs lo p r : no_name p -> stuck (VObj i kvs lo) p r ErrParameterError
| stuck_no_index l p r : no_index p -> stuck (VArr l) p r (index_error p)
| stuck_scalar d p r : no_container d -> stuck d p r EOther.

(** Building: a name or the index 0 can be built; what comes first that is neither. *)
Definition unbuildable (r : list param) (e : err) : Prop :=
  exists r1 q r2, r = r1 ++ q :: r2 /\ Forall creatable r1 /\
    ((exists i, index_value q = Some i /\ i <> 0 /\ e = ErrOutOfRange) \/
     (no_name q /\ no_index q /\ e = EOther)).

(** Writing: in [d] nothing can be written for [p] with [r] to follow. *)
Inductive set_stuck : V -> param -> list param -> err -> Prop :=
| ss_uninit d p r : d = VNil \/ d = VNotExist -> set_stuck d p r ErrValueUninitialized
| ss_scalar d p r : no_container d -> d <> VNotExist -> set_stuck d p r EOther
| ss_no_name i kvs lo p r : no_name p -> set_stuck (VObj i kvs lo) p r ErrParameterError
| ss_no_index l p r : no_index p -> set_stuck (VArr l) p r (index_error p)
| ss_range l p i : index_value p = Some i -> ~ within i l -> i <> Z.of_nat (List.length l) ->
    set_stuck (VArr l) p [] ErrOutOfRange
| ss_new_member i kvs lo k r e : ~ In k (map fst kvs) -> unbuildable r e -> set_stuck (VObj i kvs lo) (PStr k) r e
| ss_new_elem l p i r e : index_value p = Some i -> ~ within i l -> unbuildable r e -> set_stuck (VArr l) p r e.

(** Following the path [ps] from [v] one gets to a value that is stuck so. *)
Definition fails (S : V -> param -> list param -> err -> Prop) (v : V) (ps : list param) (e : err) : Prop :=
  exists ps1 p ps2 hs d, ps = ps1 ++ p :: ps2 /\ leads v ps1 hs d /\ S d p ps2 e.

(** Inserting: the parameters before the last must lead to an array, the last refer to an
    element of it. *)
Inductive insert_fails (v : V) (ps : list param) (p : param) : err -> Prop :=
| if_uninit : v = VNotExist -> insert_fails v ps p ErrValueUninitialized
| if_stuck e : v <> VNotExist -> fails stuck v ps e -> insert_fails v ps p e
| if_root : ps = [] -> v <> VNotExist -> v <> VNil -> (forall l, v <> VArr l) -> insert_fails v ps p ErrNotArrayValue
| if_type hs d : ps <> [] -> leads v ps hs d -> d <> VNil -> (forall l, d <> VArr l) -> insert_fails v ps p ErrTypeNotMatch
| if_index hs l : leads v ps hs (VArr l) -> no_index p -> insert_fails v ps p (index_error p)
| if_range hs l i : leads v ps hs (VArr l) -> index_value p = Some i -> ~ within i l ->
    insert_fails v ps p ErrOutOfRange.

(** Appending: the path must lead to an array; a missing name is built. *)
Inductive append_fails (v : V) : list param -> err -> Prop :=
| af_uninit ps : v = VNotExist -> append_fails v ps ErrValueUninitialized
| af_root : v <> VNotExist -> v <> VNil -> (forall l, v <> VArr l) -> append_fails v [] ErrNotArrayValue
| af_type ps hs d : ps <> [] -> leads v ps hs d -> d <> VNil -> (forall l, d <> VArr l) -> append_fails v ps ErrTypeNotMatch
| af_stuck ps e : v <> VNotExist -> fails stuck v ps e -> e <> ErrNotFound -> append_fails v ps e
| af_build ps e : fails stuck v ps ErrNotFound -> fails set_stuck v ps e -> append_fails v ps e.
