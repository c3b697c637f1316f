(** Properties of paths and edits (C13-C21, C40). *)
From Verif Require Import Base Float64 Value Scan Opt Marshal Access Path Edit SpecPath SpecReach
  EditProof SetClaims SetExact EditClaims ExampleWorld.

(** C13 is false: where a path meets an array with an index beyond its end and
    more parameters follow, At appends to the array; the path then leads
    nowhere. *)
Theorem C13_refuted : exists v c p q v', maps_ok v /\ plain p /\ plain q /\
  (forall E, set_at E v (arg_v c) p [q] = (v', Ok c)) /\
  (forall E W, get E W false v' p [q] = (v', Err ErrOutOfRange)).
Proof. exact set_get_refuted. Qed.
Print Assumptions C13_refuted.

(** C13 where the indexes met on the way are at most the length of their array.
    Missing: the indexes beyond the end, which are accepted. *)
Theorem C13_set_get_partial : forall (E : Env) (W : World) v c p ps v' x, maps_ok v -> maps_ok c ->
  Forall plain (p :: ps) -> in_bounds v (p :: ps) ->
  set_at E v (arg_v c) p ps = (v', Ok x) ->
  x = c /\ get E W false v' p ps = (v', Ok c) /\ must_get E W false v' p ps = (v', Ok c).
Proof. exact set_get. Qed.
Print Assumptions C13_set_get_partial.

Example C13_instance : forall E W, exists v',
  set_at E ex_obj (arg_v (VStr (bs "new"))) (PStr (bs "a")) [PInt (-2)] = (v', Ok (VStr (bs "new"))) /\
  v' = VObj 2 [(bs "a", (1, VArr [VStr (bs "x"); VStr (bs "new"); VStr (bs "z")])); (bs "b", (2, VObj 1 [(bs "c", (1, VBool true))] None))] None /\
  get E W false v' (PStr (bs "a")) [PInt (-2)] = (v', Ok (VStr (bs "new"))).
Proof. intros E W. eexists. split; [reflexivity|]. split; reflexivity. Qed.

(** C13 exactly: [w] is the place that was written, as deep as the front part
    of the path; the rest of the path was built fresh there.  Afterwards the path
    leads through that place, and then to the value, exactly if every index it
    met was within the bounds of its array or -1 on an empty one.  Otherwise it
    leads past it. *)
Theorem C13_exactly : forall (E : Env) (W : World) v c p ps v' x, maps_ok v -> maps_ok c ->
  Forall plain (p :: ps) -> set_at E v (arg_v c) p ps = (v', Ok x) ->
  exists w y front rest, p :: ps = front ++ rest /\ List.length w = List.length front /\ front <> [] /\
    sits v' w y /\ built rest c y /\
    (reach_ok v (p :: ps) <-> exists hs, leads v' (p :: ps) (w ++ hs) c) /\
    (forall hs z, leads v' (p :: ps) (w ++ hs) z -> z = c) /\
    (reach_ok v (p :: ps) -> x = c /\ get E W false v' p ps = (v', Ok c)).
Proof. exact set_exactly. Qed.
Print Assumptions C13_exactly.

(** Index -2 on an array of one element appends; the same path then reads the
    old element.  Index -1 on an empty array appends and is read back. *)
Example C13_exactly_instance : forall E W,
  (let v := VArr [VObj 1 [(bs "k", (1, VBool true))] None] in
   let v' := VArr [VObj 1 [(bs "k", (1, VBool true))] None; VObj 1 [(bs "k", (1, VNull))] None] in
   set_at E v (arg_v VNull) (PInt (-2)) [PStr (bs "k")] = (v', Ok VNull) /\
   get E W false v' (PInt (-2)) [PStr (bs "k")] = (v', Ok (VBool true)) /\
   ~ reach_ok v [PInt (-2); PStr (bs "k")]) /\
  (let v' := VArr [VArr [VNull]] in
   set_at E (VArr []) (arg_v VNull) (PInt (-1)) [PInt 0] = (v', Ok VNull) /\
   get E W false v' (PInt (-1)) [PInt 0] = (v', Ok VNull)).
Proof.
  intros E W. split; [|split; reflexivity]. split; [reflexivity|]. split; [reflexivity|].
  intros R. specialize (R [] _ _ _ _ _ eq_refl (leads_here _) eq_refl).
  destruct R as [R|(R & _)]; [cbn in R; destruct R as (R & _); now apply R|discriminate R].
Qed.

(** C14 is false for paths with negative indexes: appending an element shifts
    what they address. *)
Theorem C14_refuted : exists v c p v' q a, set_at env0 v (arg_v c) p [] = (v', Ok c) /\
  (forall W, get env0 W false v q [] = (v, Ok a)) /\ (forall W, get env0 W false v' q [] = (v', Ok c)) /\
  leads v [q] [HIdx 0] a /\ leads v' [p] [HIdx 1] c /\ a <> c.
Proof. exact set_frame_refuted. Qed.
Print Assumptions C14_refuted.

(** C14 for places, and for other paths with indexes counted from the start.
    Missing: other paths with negative indexes. *)
Theorem C14_set_frame_partial : forall (E : Env) v c p ps v' x, maps_ok v -> maps_ok c ->
  Forall plain (p :: ps) -> set_at E v (arg_v c) p ps = (v', Ok x) ->
  exists w y rest,
    sits v' w y /\ built rest c y /\ (exists front, p :: ps = front ++ rest) /\
    (in_bounds v (p :: ps) -> exists hs, leads v' (p :: ps) (w ++ hs) c) /\
    (forall q z, unrelated q w -> (sits v q z <-> sits v' q z)) /\
    (forall W q qs z, Forall key_or_index (q :: qs) -> Forall from_start (q :: qs) -> unrelated (place_of (q :: qs)) w ->
       (get E W false v q qs = (v, Ok z) <-> get E W false v' q qs = (v', Ok z))).
Proof. exact set_frame. Qed.
Print Assumptions C14_set_frame_partial.

Example C14_instance : forall E W, let r := set_at E ex_obj (arg_v VNull) (PStr (bs "b")) [PStr (bs "d"); PInt 0] in
  snd r = Ok VNull /\
  get E W false (fst r) (PStr (bs "b")) [PStr (bs "c")] = (fst r, Ok (VBool true)) /\
  get E W false (fst r) (PStr (bs "a")) [PInt 2] = (fst r, Ok (VStr (bs "z"))) /\
  get E W false (fst r) (PStr (bs "b")) [PStr (bs "d")] = (fst r, Ok (VArr [VNull])).
Proof. intros E W. repeat split; reflexivity. Qed.

(** C14 exactly, for any path that led to a place unrelated to the one written:
    it leads to the same place and value as before, unless it counts from the
    end of the array that has grown; then it leads to another place or nowhere. *)
Theorem C14_exactly : forall (E : Env) v c p ps v' x, maps_ok v -> maps_ok c -> Forall plain (p :: ps) ->
  set_at E v (arg_v c) p ps = (v', Ok x) ->
  exists w y front rest, p :: ps = front ++ rest /\ List.length w = List.length front /\ front <> [] /\
    sits v' w y /\ built rest c y /\
    (forall W q qs pl z, Forall plain (q :: qs) -> unrelated pl w -> ~ shifted v (q :: qs) w ->
       (leads v (q :: qs) pl z <-> leads v' (q :: qs) pl z) /\
       (leads v (q :: qs) pl z -> get E W false v q qs = (v, Ok z) /\ get E W false v' q qs = (v', Ok z))) /\
    (forall q pl z z', shifted v q w -> leads v q pl z -> ~ leads v' q pl z').
Proof. exact set_frame_exactly. Qed.
Print Assumptions C14_exactly.

(** A negative index of another array is not shifted, one of the array that has
    grown is. *)
Example C14_exactly_instance : forall E W,
  let v := VArr [VArr [VBool true; VBool false]; VNull] in
  let v' := VArr [VArr [VBool true; VBool false; VNull]; VNull] in
  set_at E v (arg_v VNull) (PInt 0) [PInt 2] = (v', Ok VNull) /\
  get E W false v (PInt (-2)) [PInt 1] = (v, Ok (VBool false)) /\
  get E W false v' (PInt (-2)) [PInt 1] = (v', Ok (VBool false)) /\
  get E W false v (PInt 0) [PInt (-2)] = (v, Ok (VBool true)) /\
  get E W false v' (PInt 0) [PInt (-2)] = (v', Ok (VBool false)) /\
  shifted v [PInt 0; PInt (-2)] [HIdx 0; HIdx 2].
Proof.
  intros E W v v'. do 5 (split; [reflexivity|]).
  exists [PInt 0], (PInt (-2)), [], [HIdx 0], [VBool true; VBool false], (-2).
  split; [reflexivity|]. split; [|split; [reflexivity|split; [lia|reflexivity]]].
  change v with (VArr ([] ++ VArr [VBool true; VBool false] :: [VNull])).
  eapply leads_elem with (a := []); [reflexivity|now left|constructor].
Qed.

(** C15: a call that does not succeed, whatever its parameters, leaves the
    document as it was. *)
Theorem C15_unchanged : forall (E : Env) (W : World) v x first others params,
  (failed (snd (set_at E v x first others)) -> fst (set_at E v x first others) = v) /\
  (failed (snd (insert_before E W v x first others)) -> fst (insert_before E W v x first others) = v) /\
  (failed (snd (insert_after E W v x first others)) -> fst (insert_after E W v x first others) = v) /\
  (failed (snd (append_beginning E W v x params)) -> fst (append_beginning E W v x params) = v) /\
  (failed (snd (append_end E W v x params)) -> fst (append_end E W v x params) = v) /\
  (failed (snd (delete_at E W false v first others)) -> fst (delete_at E W false v first others) = v).
Proof. exact failing_unchanged. Qed.
Print Assumptions C15_unchanged.

(** A failing Caseless().Delete may build the index for caseless access, nothing
    else, and the index does not show in the output. *)
Theorem C15_caseless_unchanged : forall (E : Env) (W : World) v first others,
  failed (snd (caseless_delete E W v first others)) ->
  forget (fst (caseless_delete E W v first others)) = forget v /\
  (forall W' o, o_less o = None -> marshal_opt E W' o (fst (caseless_delete E W v first others)) = marshal_opt E W' o v).
Proof. exact caseless_failing_unchanged. Qed.
Print Assumptions C15_caseless_unchanged.

(** Part of the path could be created before the failure shows. *)
Example C15_instance : forall E W,
  set_at E ex_obj (arg_v VNull) (PStr (bs "n")) [PStr (bs "m"); PInt 0; PInt 7] = (ex_obj, Err ErrOutOfRange) /\
  set_at E ex_obj (arg_v VNull) (PStr (bs "a")) [PInt 9; PStr (bs "m"); PInt 1] = (ex_obj, Err ErrOutOfRange) /\
  append_end E W ex_obj (arg_v VNull) [PStr (bs "b"); PStr (bs "c"); PInt 0] = (ex_obj, Err EOther) /\
  delete_at E W false ex_obj (PStr (bs "a")) [PInt 3] = (ex_obj, Err ErrOutOfRange).
Proof. intros E W. repeat split; reflexivity. Qed.

(** C16: what a successful Set made ([set_outcome]: existing containers are
    followed, the next parameter is written, the rest is [built] fresh), when it
    succeeds, and the two failures. *)
Theorem C16_created : forall (E : Env) v c p ps v' x, maps_ok v ->
  Forall plain (p :: ps) -> set_at E v (arg_v c) p ps = (v', Ok x) -> x = c /\ set_outcome v (p :: ps) c v'.
Proof. exact set_creates. Qed.
Print Assumptions C16_created.

Theorem C16_succeeds : forall (E : Env) v c p ps, maps_ok v ->
  Forall plain (p :: ps) -> c <> VNil -> c <> VNotExist ->
  ((exists v', set_at E v (arg_v c) p ps = (v', Ok c)) <-> settable v (p :: ps)) /\
  (~ settable v (p :: ps) -> exists e, set_at E v (arg_v c) p ps = (v, Err e)).
Proof. exact set_when. Qed.
Print Assumptions C16_succeeds.

Theorem C16_fails : forall (E : Env) v c ps1 p ps2 hs d first others, maps_ok v ->
  Forall plain (first :: others) -> first :: others = ps1 ++ p :: ps2 ->
  leads v ps1 hs d ->
  ((forall i kvs lo k, ~ (d = VObj i kvs lo /\ p = PStr k)) /\ (forall l i, ~ (d = VArr l /\ index_value p = Some i))
   \/ (forall hs' c', ~ leads d [p] hs' c') /\ (exists q i, In q ps2 /\ index_value q = Some i /\ i <> 0)) ->
  exists e, set_at E v (arg_v c) first others = (v, Err e).
Proof. exact set_fails_when. Qed.
Print Assumptions C16_fails.

Example C16_instance : forall E,
  set_at E (VObj 0 [] None) (arg_v VNull) (PStr (bs "a")) [PInt 0; PStr (bs "b"); PUint 0] =
    (VObj 1 [(bs "a", (1, VArr [VObj 1 [(bs "b", (1, VArr [VNull]))] None]))] None, Ok VNull) /\
  set_at E ex_obj (arg_v VNull) (PStr (bs "a")) [PInt 0; PStr (bs "b")] = (ex_obj, Err EOther).
Proof. intros E. split; reflexivity. Qed.

(** C17 is false for unsigned parameters beyond the range of int, which wrap. *)
Theorem C17_refuted : exists l u x, 0 <= u < two64 /\ Z.of_nat (List.length l) <= u /\
  forall E W, get E W false (VArr l) (PUint u) [] = (VArr l, Ok x).
Proof. exact get_index_refuted. Qed.
Print Assumptions C17_refuted.

(** C17 with the index a parameter stands for after conversion to int.
    Missing: unsigned parameters of 2^63 and more, whose value this is not. *)
Theorem C17_get_steps_partial : forall (E : Env) (W : World),
  (forall i, index_value (PInt i) = Some i) /\ (forall u, 0 <= u < two63 -> index_value (PUint u) = Some u) /\
  (forall a x b p i, index_value p = Some i ->
     i = Z.of_nat (List.length a) \/ i = Z.of_nat (List.length a) - Z.of_nat (List.length (a ++ x :: b)) ->
     get E W false (VArr (a ++ x :: b)) p [] = (VArr (a ++ x :: b), Ok x)) /\
  (forall l p i ps, index_value p = Some i ->
     i < - Z.of_nat (List.length l) \/ Z.of_nat (List.length l) <= i ->
     get E W false (VArr l) p ps = (VArr l, Err ErrOutOfRange)) /\
  (forall i kvs lo k id x, NoDup (map fst kvs) -> In (k, (id, x)) kvs ->
     get E W false (VObj i kvs lo) (PStr k) [] = (VObj i kvs lo, Ok x)) /\
  (forall i kvs lo k ps, ~ In k (map fst kvs) ->
     get E W false (VObj i kvs lo) (PStr k) ps = (VObj i kvs lo, Err ErrNotFound)) /\
  (forall v p q r, plain p ->
     get E W false v p (q :: r) =
     match get E W false v p [] with
     | (_, Ok c) => (v, snd (get E W false c q r))
     | (_, e) => (v, e)
     end).
Proof. exact get_steps. Qed.
Print Assumptions C17_get_steps_partial.

(** Get finds exactly what the path leads to. *)
Theorem C17_get_path_partial : forall (E : Env) (W : World) v p ps c, maps_ok v ->
  Forall plain (p :: ps) -> (get E W false v p ps = (v, Ok c) <-> exists hs, leads v (p :: ps) hs c).
Proof. exact PathProof.get_leads. Qed.
Print Assumptions C17_get_path_partial.

(** Unsigned indexes without exception: the numbers just below 2^64 count from
    the end (the array is shorter than 2^63). *)
Theorem C17_unsigned_exactly : forall (E : Env) (W : World) l u, 0 <= u < two64 -> Z.of_nat (List.length l) < two63 ->
  (forall a x b, l = a ++ x :: b -> u = Z.of_nat (List.length a) \/ u = two64 - Z.of_nat (S (List.length b)) ->
     get E W false (VArr l) (PUint u) [] = (VArr l, Ok x)) /\
  (Z.of_nat (List.length l) <= u < two64 - Z.of_nat (List.length l) ->
     get E W false (VArr l) (PUint u) [] = (VArr l, Err ErrOutOfRange)).
Proof. exact get_unsigned. Qed.
Print Assumptions C17_unsigned_exactly.

Example C17_instance : forall E W,
  get E W false ex_obj (PStr (bs "a")) [PInt 1] = (ex_obj, Ok (VStr (bs "y"))) /\
  get E W false ex_obj (PStr (bs "a")) [PInt (-3)] = (ex_obj, Ok (VStr (bs "x"))) /\
  get E W false ex_obj (PStr (bs "a")) [PInt (-4)] = (ex_obj, Err ErrOutOfRange) /\
  get E W false ex_obj (PStr (bs "A")) [] = (ex_obj, Err ErrNotFound) /\
  get E W true ex_obj (PStr (bs "a")) [PUint 3] = (ex_obj, Err ErrOutOfRange).
Proof. intros E W. repeat split; reflexivity. Qed.

(** C18: the element goes next to the one addressed; otherwise an error and no
    change (a tree with nil pointers inside may panic instead). *)
Theorem C18_insert : forall (E : Env) (W : World) (after : bool) v c ps p first others hs a e b i, maps_ok v ->
  Forall plain (first :: others) -> first :: others = ps ++ [p] ->
  leads v ps hs (VArr (a ++ e :: b)) -> index_value p = Some i -> refers i a b ->
  exists v', (if after then insert_after E W v (arg_v c) first others else insert_before E W v (arg_v c) first others) = (v', Ok c) /\
    changed (fun x x' => x = VArr (a ++ e :: b) /\ x' = VArr (if after then a ++ e :: c :: b else a ++ c :: e :: b)) hs v v' /\
    leads v' ps hs (VArr (if after then a ++ e :: c :: b else a ++ c :: e :: b)).
Proof. exact insert_succeeds. Qed.
Print Assumptions C18_insert.

Theorem C18_insert_only : forall (E : Env) (W : World) (after : bool) v c ps p first others v' x, maps_ok v ->
  Forall plain (first :: others) -> first :: others = ps ++ [p] ->
  (if after then insert_after E W v (arg_v c) first others else insert_before E W v (arg_v c) first others) = (v', Ok x) <->
  x = c /\ exists hs d i, leads v ps hs d /\ index_value p = Some i /\
    changed (fun a a' => a = d /\ added after c i a a') hs v v'.
Proof. exact insert_iff. Qed.
Print Assumptions C18_insert_only.

Theorem C18_insert_fails : forall (E : Env) (W : World) (after : bool) v c ps p first others, maps_ok v -> no_nil v ->
  Forall plain (first :: others) -> first :: others = ps ++ [p] ->
  ~ (exists hs a e b i, leads v ps hs (VArr (a ++ e :: b)) /\ index_value p = Some i /\ refers i a b) ->
  exists e, (if after then insert_after E W v (arg_v c) first others else insert_before E W v (arg_v c) first others) = (v, Err e).
Proof. exact insert_fails. Qed.
Print Assumptions C18_insert_fails.

Example C18_instance : forall E W, let l := VArr [VNull; VBool true] in
  insert_before E W l (arg_v (VStr [])) (PInt (-1)) [] = (VArr [VNull; VStr []; VBool true], Ok (VStr [])) /\
  insert_after E W l (arg_v (VStr [])) (PInt (-1)) [] = (VArr [VNull; VBool true; VStr []], Ok (VStr [])) /\
  insert_after E W (VArr [l]) (arg_v (VStr [])) (PInt 0) [PUint 0] = (VArr [VArr [VNull; VStr []; VBool true]], Ok (VStr [])) /\
  insert_before E W l (arg_v (VStr [])) (PInt 2) [] = (l, Err ErrOutOfRange).
Proof. intros E W. repeat split; reflexivity. Qed.

(** C19 is false where the missing array is an element of an array: Append
    reports an error although Set would create it. *)
Theorem C19_refuted : exists v c p, maps_ok v /\
  (forall E W front, append_at E W front v (arg_v c) [p] = (v, Err ErrOutOfRange)) /\
  (forall E, exists v', set_at E v (arg_v (VArr [c])) p [] = (v', Ok (VArr [c]))).
Proof. exact append_refuted. Qed.
Print Assumptions C19_refuted.

(** C19: Append succeeds exactly if the path leads to an array, which gets one
    element at the chosen end, or if a member is missing and Set can store the
    array of one element.  Missing: an element missing on the way. *)
Theorem C19_append_partial : forall (E : Env) (W : World) front v c ps v' x, maps_ok v ->
  Forall plain ps -> append_at E W front v (arg_v c) ps = (v', Ok x) <->
  x = c /\
  ((exists hs l, leads v ps hs (VArr l) /\
      changed (fun a a' => a = VArr l /\ a' = VArr (end_added front c l)) hs v v') \/
   (exists p r y, ps = p :: r /\ missing_member v ps /\ set_at E v (arg_v (VArr [c])) p r = (v', Ok y))).
Proof. exact append_iff. Qed.
Print Assumptions C19_append_partial.

Example C19_instance : forall E W, let l := VArr [VNull; VBool true] in
  append_end E W l (arg_v (VStr [])) [] = (VArr [VNull; VBool true; VStr []], Ok (VStr [])) /\
  append_beginning E W (VArr [l]) (arg_v (VStr [])) [PInt 0] = (VArr [VArr [VStr []; VNull; VBool true]], Ok (VStr [])) /\
  append_end E W (VObj 0 [] None) (arg_v VNull) [PStr (bs "a"); PStr (bs "b")] =
    (VObj 1 [(bs "a", (1, VObj 1 [(bs "b", (1, VArr [VNull]))] None))] None, Ok VNull).
Proof. intros E W. repeat split; reflexivity. Qed.

(** C20 *)
Theorem C20_delete : forall (E : Env) (W : World) v ps p first others, maps_ok v ->
  Forall plain (first :: others) -> first :: others = ps ++ [p] ->
  ((exists v', delete_at E W false v first others = (v', Ok tt)) <-> exists hs c, leads v (first :: others) hs c) /\
  (forall v', delete_at E W false v first others = (v', Ok tt) ->
     exists hs d d', leads v ps hs d /\ changed (fun a a' => a = d /\ a' = d') hs v v' /\ leads v' ps hs d' /\
       removed p d d' /\ (exists n, api_len d = Ok (S n) /\ api_len d' = Ok n) /\
       (forall k, p = PStr k -> exists e, get E W false v' first others = (v', Err e) /\ e = ErrNotFound)).
Proof. exact delete_effect. Qed.
Print Assumptions C20_delete.

Example C20_instance : forall E W,
  delete_at E W false ex_obj (PStr (bs "a")) [PInt (-2)] =
    (VObj 2 [(bs "a", (1, VArr [VStr (bs "x"); VStr (bs "z")])); (bs "b", (2, VObj 1 [(bs "c", (1, VBool true))] None))] None, Ok tt) /\
  delete_at E W false ex_obj (PStr (bs "a")) [] =
    (VObj 2 [(bs "b", (2, VObj 1 [(bs "c", (1, VBool true))] None))] None, Ok tt).
Proof. intros E W. split; reflexivity. Qed.

(** C21 *)
Theorem C21_slice : forall (E : Env) (W : World) v x p ps,
  (forall cl, get E W cl v (PSlice (p :: ps)) [] = get E W cl v p ps) /\
  set_at E v x (PSlice (p :: ps)) [] = set_at E v x p ps /\
  insert_before E W v x (PSlice (p :: ps)) [] = insert_before E W v x p ps /\
  insert_after E W v x (PSlice (p :: ps)) [] = insert_after E W v x p ps /\
  (forall front l, append_at E W front v x [PSlice l] = append_at E W front v x l) /\
  (forall cl, delete_at E W cl v (PSlice (p :: ps)) [] = delete_at E W cl v p ps).
Proof. exact slice_is_path. Qed.
Print Assumptions C21_slice.

Theorem C21_slice_alone : forall (E : Env) (W : World) v x l q r,
  (forall cl, get E W cl v (PSlice l) (q :: r) = (v, Err ErrMultipleParam)) /\
  (forall cl, delete_at E W cl v (PSlice l) (q :: r) = (v, Err ErrMultipleParam)) /\
  (forall op, op = set_at E v x \/ op = insert_before E W v x \/ op = insert_after E W v x ->
     fst (op (PSlice l) (q :: r)) = v /\ failed (snd (op (PSlice l) (q :: r)))) /\
  (forall front, fst (append_at E W front v x (PSlice l :: q :: r)) = v /\
     failed (snd (append_at E W front v x (PSlice l :: q :: r)))).
Proof. exact slice_alone. Qed.
Print Assumptions C21_slice_alone.

(** A slice without elements is no path. *)
Theorem C21_slice_empty : forall (E : Env) (W : World) v x,
  (forall cl, fst (get E W cl v (PSlice []) []) = v /\ failed (snd (get E W cl v (PSlice []) []))) /\
  (forall cl, fst (delete_at E W cl v (PSlice []) []) = v /\ failed (snd (delete_at E W cl v (PSlice []) []))) /\
  (forall op, op = set_at E v x \/ op = insert_before E W v x \/ op = insert_after E W v x ->
     fst (op (PSlice []) []) = v /\ failed (snd (op (PSlice []) []))).
Proof. exact slice_empty. Qed.
Print Assumptions C21_slice_empty.

Example C21_instance : forall E W,
  get E W false ex_obj (PSlice [PStr (bs "a"); PInt 1]) [] = (ex_obj, Ok (VStr (bs "y"))) /\
  snd (append_end E W ex_obj (arg_v VNull) [PSlice [PStr (bs "n"); PStr (bs "m")]]) = Ok VNull /\
  get E W false ex_obj (PSlice [PStr (bs "a")]) [PInt 1] = (ex_obj, Err ErrMultipleParam).
Proof. intros E W. repeat split; reflexivity. Qed.

(** C40 *)
Theorem C40_must : forall (E : Env) (W : World) v x first others params,
  (fst (must_set_at E v x first others) = fst (set_at E v x first others) /\
   fst (at_set E v first others x) = fst (set_at E v x first others) /\
   fst (must_insert_before E W v x first others) = fst (insert_before E W v x first others) /\
   fst (must_insert_after E W v x first others) = fst (insert_after E W v x first others) /\
   fst (must_append_beginning E W v x params) = fst (append_beginning E W v x params) /\
   fst (must_append_end E W v x params) = fst (append_end E W v x params) /\
   (forall cl, fst (must_delete E W cl v first others) = fst (delete_at E W cl v first others)) /\
   (forall cl, fst (must_get E W cl v first others) = fst (get E W cl v first others))) /\
  ((failed (snd (set_at E v x first others)) -> fst (must_set_at E v x first others) = v /\ fst (at_set E v first others x) = v) /\
   (failed (snd (insert_before E W v x first others)) -> fst (must_insert_before E W v x first others) = v) /\
   (failed (snd (insert_after E W v x first others)) -> fst (must_insert_after E W v x first others) = v) /\
   (failed (snd (append_beginning E W v x params)) -> fst (must_append_beginning E W v x params) = v) /\
   (failed (snd (append_end E W v x params)) -> fst (must_append_end E W v x params) = v) /\
   (failed (snd (delete_at E W false v first others)) -> fst (must_delete E W false v first others) = v) /\
   (forall c, snd (get E W false v first others) = Ok c -> must_get E W false v first others = (v, Ok c)) /\
   (forall e, snd (get E W false v first others) = Err e -> must_get E W false v first others = (v, Ok VNotExist))).
Proof. exact must_same. Qed.
Print Assumptions C40_must.

Example C40_instance : forall E W,
  must_set_at E ex_obj (arg_v VNull) (PStr (bs "b")) [] =
    (VObj 3 [(bs "a", (1, VArr [VStr (bs "x"); VStr (bs "y"); VStr (bs "z")])); (bs "b", (3, VNull))] None, Ok tt) /\
  must_delete E W false ex_obj (PStr (bs "z")) [] = (ex_obj, Ok tt) /\
  must_get E W false ex_obj (PStr (bs "z")) [] = (ex_obj, Ok VNotExist).
Proof. intros E W. repeat split; reflexivity. Qed.

(** None of these calls panics on a document without nil pointers inside. *)
Theorem C15_no_panic : forall (E : Env) (W : World) v x first others params, no_nil v ->
  (forall cl, ends (snd (get E W cl v first others))) /\
  ends (snd (set_at E v x first others)) /\
  ends (snd (insert_before E W v x first others)) /\ ends (snd (insert_after E W v x first others)) /\
  (forall front, ends (snd (append_at E W front v x params))) /\
  (forall cl, ends (snd (delete_at E W cl v first others))).
Proof. exact edits_end. Qed.
Print Assumptions C15_no_panic.

Example C15_no_panic_instance : forall E W,
  insert_before E W ex_obj (arg_v VNull) (PSlice []) [] = (ex_obj, Err ErrNotArrayValue) /\
  append_end E W (VArr [VNil]) (arg_v VNull) [PInt 0] = (VArr [VNil], Panic).
Proof. intros E W. split; reflexivity. Qed.
