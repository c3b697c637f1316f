(** UnmarshalJSON and UnmarshalBinary into a value that exists (C51), SortArray on
    values in memory (C39, C45). *)
From Coq Require Import Permutation.
From Verif Require Import Base Utf8 Float64 Value Scan Unmarshal Opt Marshal Access SpecJson SpecValue SpecText SpecLax SpecOut SpecOpts
  SpecOrder Path SpecPath Edit Heap SpecHeap SpecShare HeapReload ReloadClaims GoValue Import ExampleWorld.

(** *** C51 *)

(** If Unmarshal accepts the text, the struct of the receiver, and no other that
    existed, is overwritten: the receiver shows what Unmarshal returns, made of new
    structs apart from its own.  If not, the error is that of Unmarshal, and nothing
    changed. *)
Theorem C51_load : forall (E : Env) h a c b, nth_error h a = Some c ->
  (exists w h' s, unmarshal E b = Ok (w, None) /\ h_load E h (Some a) b = (h', Ok None) /\ unshared h' (Some a) w s /\
     (forall x, In x s -> x = a \/ (List.length h <= x)%nat) /\
     (forall x, (x < List.length h)%nat -> x <> a -> nth_error h' x = nth_error h x)) \/
  (exists w e, unmarshal E b = Ok (w, Some e) /\ h_load E h (Some a) b = (h, Err e)).
Proof. exact load_report. Qed.
Print Assumptions C51_load.

(** Any document that holds the receiver, at one place or at several, shows the new
    value at these places, and what it showed at all places that are not above or
    below them. *)
Theorem C51_holders : forall (E : Env) h p b w d t, deref h p <> None -> unmarshal E b = Ok (w, None) -> shows h d t ->
  exists h' t', h_load E h p b = (h', Ok None) /\ shows h' d t' /\
    (forall ks, walk h d ks p -> sits t' ks w) /\
    (forall ks q u, walk h d ks q -> ~ reaches h q p -> (forall is js, ks = is ++ js -> ~ walk h d is p) ->
       shows h q u -> sits t' ks u).
Proof. exact load_seen. Qed.
Print Assumptions C51_holders.

(** Values that do not hold the receiver show what they showed, whatever the outcome;
    among them the former children of the receiver. *)
Theorem C51_others : forall (E : Env) h p b h' r q t,
  h_load E h p b = (h', r) -> ~ reaches h q p -> shows h q t -> shows h' q t.
Proof. exact load_apart. Qed.
Print Assumptions C51_others.

Theorem C51_former_children : forall (E : Env) h a t b h' r k q u, shows h (Some a) t -> h_load E h (Some a) b = (h', r) ->
  step h (Some a) k q -> shows h q u -> shows h' q u.
Proof. exact load_children. Qed.
Print Assumptions C51_former_children.

(** The receiver must not be nil: a text that is accepted then panics. *)
Theorem C51_nil : forall (E : Env) h b h' r, h_load E h None b = (h', r) ->
  (forall x, (x < List.length h)%nat -> nth_error h' x = nth_error h x) /\
  ((r = Panic /\ exists w, unmarshal E b = Ok (w, None)) \/ exists w e, unmarshal E b = Ok (w, Some e) /\ r = Err e).
Proof. exact load_nil. Qed.
Print Assumptions C51_nil.

(** MarshalJSON (Marshal without options) of one value and UnmarshalJSON into another:
    the second then is the same JSON value as the first, under the conditions of C05. *)
Theorem C51_round_trip : forall (E : Env) (W : World) default h a c q v,
  opt_ws (combine_options default []) -> nth_error h a = Some c -> shows h q v ->
  json_typed v -> all_text (Forall is_byte) (fun _ src => lax_num src) v ->
  exists b h' v', marshal E W default [] v = Ok b /\ h_load E h (Some a) b = (h', Ok None) /\ shows h' (Some a) v' /\
    (all_objs names_distinct v -> same_json (fun _ src n' => lax_value src n') (o_omit_null (combine_options default [])) v v') /\
    (~ reaches h q (Some a) -> shows h' q v).
Proof. exact marshal_load. Qed.
Print Assumptions C51_round_trip.

(** {"a":[1]} at 2; the array at 1 is overwritten with {"x":[]}; the number at 0 stays
    what it was; a text that is refused changes nothing. *)
Example C51_instance :
  let E := env0 in let W := world1 in
  let h := fst (h_build [] (VObj 1 [(bs "a", (1, VArr [new_int64 1]))] None)) in
  let o := h_load E h (Some 1%nat) (bs "{""x"":[]}") in
  snd o = Ok None /\ view (fst o) (Some 2%nat) = VObj 1 [(bs "a", (1, VObj 1 [(bs "x", (1, VArr []))] None))] None /\
  view (fst o) (Some 0%nat) = new_int64 1 /\
  h_load E h (Some 1%nat) (bs "{""x"":[}") = (h, Err ErrRawBytesUnrecognized) /\
  snd (h_load E h None (bs "1")) = Panic /\ snd (h_load E h None (bs "?")) = Err ErrRawBytesUnrecognized.
Proof. vm_compute. repeat split. Qed.

(** Two documents hold one value: both see the change. *)
Example C51_shared :
  let h := [CNull; CArr [Some 0; Some 0]; CArr [Some 0]]%nat in
  let h' := fst (h_load env0 h (Some 0%nat) (bs "true")) in
  view h' (Some 1%nat) = VArr [VBool true; VBool true] /\ view h' (Some 2%nat) = VArr [VBool true].
Proof. vm_compute. split; reflexivity. Qed.

(** *** SortArray *)

(** The array holds the same values as before, moved: no value is copied or lost, and
    if the answers of the function on the elements are those of a strict weak order,
    no element stands after a greater one. *)
Theorem C39_memory : forall (W : World) h v f l, deref h v = Some (CArr l) ->
  exists h' l', h_sort W h v (Some f) = (h', Ok None) /\ deref h' v = Some (CArr l') /\ Permutation l' l /\
    (exists g, alters h h' v (EPerm g)) /\
    forall R : ptr -> ptr -> bool, strict_weak_order R -> (forall x y, In x l -> In y l -> f h x y = R x y) ->
      ForallOrdPairs (fun x y => R y x = false) l'.
Proof. exact sort_inside. Qed.
Print Assumptions C39_memory.

Theorem C39_memory_other : forall (W : World) h v less h' r, h_sort W h v less = (h', r) ->
  (less = None \/ forall l, deref h v <> Some (CArr l)) ->
  h' = h /\ (r = Ok None \/ (r = Panic /\ deref h v = None /\ less <> None)).
Proof. exact sort_nothing. Qed.
Print Assumptions C39_memory_other.

(** The structs 0, 1, 2 of an array are sorted by the length of their texts. *)
Example C39_memory_instance :
  let h := [CStr (bs "ccc"); CStr (bs "a"); CStr (bs "bb"); CArr [Some 0; Some 1; Some 2]]%nat in
  let size h p := match deref h p with Some (CStr s) => List.length s | _ => O end in
  let f h p q := Nat.ltb (size h p) (size h q) in
  deref (fst (h_sort world1 h (Some 3%nat) (Some f))) (Some 3%nat) = Some (CArr [Some 1; Some 2; Some 0]%nat) /\
  strict_weak_order (fun p q => f h p q).
Proof.
  split; [vm_compute; reflexivity|]. repeat split; intros; rewrite ?Nat.ltb_lt, ?Nat.ltb_ge, ?Nat.ltb_irrefl in *; auto; lia.
Qed.
