(** Property of the typed variants SetXxx, InsertXxx and AppendXxx (C58). *)
From Verif Require Import Base Float64 Value Opt Marshal Access Path Edit Base64 SpecPath SpecReach Typed SpecTyped TypedProof ExampleWorld.

(** C58: what a typed variant writes, the getter of that type reads back: after
    SetXxx(x).At(path), GetXxx(path) is x.  [reach_ok] asks that no index in the
    path appends behind or outside of its array, see C13_exactly. *)
Theorem C58_set : forall (E : Env) (W : World) v a p o v' x,
  of_type E a -> maps_ok v -> Forall plain (p :: o) -> reach_ok v (p :: o) ->
  set_typed E v a p o = (v', Ok x) ->
  x = new_typed E a /\ reads_back E W v' a (p :: o).
Proof. exact set_typed_get. Qed.
Print Assumptions C58_set.

(** After InsertXxx(x).Before or After(path, i), at its new place in the array. *)
Theorem C58_insert : forall (E : Env) (W : World) (after : bool) v a ps p first others v' x,
  of_type E a -> maps_ok v -> Forall plain (first :: others) -> first :: others = ps ++ [p] ->
  insert_typed E W after v a first others = (v', Ok x) ->
  x = new_typed E a /\
  exists hs l i, leads v ps hs (VArr l) /\ index_value p = Some i /\ - Z.of_nat (List.length l) <= i < Z.of_nat (List.length l) /\
    reads_back E W v' a (ps ++ [PInt ((if i <? 0 then i + Z.of_nat (List.length l) else i) + (if after then 1 else 0))]).
Proof. exact insert_typed_get. Qed.
Print Assumptions C58_insert.

(** After AppendXxx(x).InTheBeginning(path) at index 0, after InTheEnd at -1. *)
Theorem C58_append : forall (E : Env) (W : World) (front : bool) v a ps v' x,
  of_type E a -> maps_ok v -> Forall plain ps -> reach_ok v ps ->
  append_typed E W front v a ps = (v', Ok x) ->
  x = new_typed E a /\ reads_back E W v' a (ps ++ [PInt (if front then 0 else -1)]).
Proof. exact append_typed_get. Qed.
Print Assumptions C58_append.

(** The Must forms leave the same document. *)
Theorem C58_must : forall (E : Env) (W : World) v a p o ps (b : bool),
  fst (must_set_typed E v a p o) = fst (set_typed E v a p o) /\
  fst (must_insert_typed E W b v a p o) = fst (insert_typed E W b v a p o) /\
  fst (must_append_typed E W b v a ps) = fst (append_typed E W b v a ps).
Proof. exact must_typed. Qed.
Print Assumptions C58_must.

Definition typed_doc : V := VObj 1 [(bs "a", (0, VArr [VNull; VBool true]))] None.

(** Three edits, and the document after the third: SetInt32(-2^31) at a new member
    of a new object, InsertUint64(2^64-1) behind a[-1], AppendBytes at the front. *)
Example C58_instance :
  let v1 := fst (set_typed env0 typed_doc (AInt32 (-2147483648)) (PStr (bs "b")) [PStr (bs "c")]) in
  let v2 := fst (insert_typed env0 world1 true v1 (AUint64 18446744073709551615) (PStr (bs "a")) [PInt (-1)]) in
  let v3 := fst (append_typed env0 world1 true v2 (ABytes [0; 255; 128]) [PStr (bs "a")]) in
  get_int32 env0 world1 false v1 (PStr (bs "b")) [PStr (bs "c")] = Ok (-2147483648, None) /\
  get_uint64 env0 world1 false v2 (PStr (bs "a")) [PInt 2] = Ok (18446744073709551615, None) /\
  get_bytes env0 world1 false v3 (PStr (bs "a")) [PInt 0] = Ok ([0; 255; 128], None) /\
  get_uint64 env0 world1 false v3 (PStr (bs "a")) [PInt 3] = Ok (18446744073709551615, None).
Proof. vm_compute. repeat split. Qed.

(** Without [of_type]: a number that no int32 holds is cut by the getter. *)
Example C58_bounds :
  get_int32 env0 world1 false (fst (set_typed env0 typed_doc (AInt64 2147483648) (PStr (bs "b")) [])) (PStr (bs "b")) [] =
  Ok (-2147483648, None).
Proof. vm_compute. reflexivity. Qed.
