(** C89: Unmarshal part by part. *)
From Verif Require Import Base Float64 Value Unmarshal Path Edit SpecJson SpecLax SpecPath SpecPieces SpecCut SpecReading ReadingProof ExampleWorld.

(** The text of an array: exactly brackets around texts that Unmarshal accepts on their own, with blanks and
    commas between them; the elements are the values it gives for these. *)
Theorem C89_array : forall (E : Env) (b : bytes) (vs : list V), Forall is_byte b ->
  unmarshal E b = Ok (VArr vs, None) <->
  exists w m w', b = w ++ 91 :: m ++ 93 :: w' /\ lblanks w /\ lblanks w' /\ elements E m vs.
Proof. exact array_read. Qed.
Print Assumptions C89_array.

(** The text of an object: the value is what NewObject() and Set(value).At(name), member by member in the order
    of the text, give: with the same numbers for OptSetSequence and the same caseless index. *)
Theorem C89_object : forall (E : Env) (b : bytes) i kvs lo, Forall is_byte b ->
  unmarshal E b = Ok (VObj i kvs lo, None) <->
  exists w m w', b = w ++ 123 :: m ++ 125 :: w' /\ lblanks w /\ lblanks w' /\ members E m new_object (VObj i kvs lo).
Proof. exact object_read. Qed.
Print Assumptions C89_object.

(** Accepted texts with commas between them and brackets around them. *)
Theorem C89_array_of : forall (E : Env) (bs : list bytes) (vs : list V), Forall (Forall is_byte) bs ->
  Forall2 (fun b v => unmarshal E b = Ok (v, None)) bs vs ->
  unmarshal E (91 :: commas bs ++ [93]) = Ok (VArr vs, None).
Proof. exact array_joined. Qed.
Print Assumptions C89_array_of.

(** Members ((text of the name, text of the value), (name, value)). *)
Theorem C89_object_of : forall (E : Env) (l : list ((bytes * bytes) * (bytes * V))),
  Forall (fun x => Forall is_byte (fst (fst x)) /\ Forall is_byte (snd (fst x)) /\
                   unmarshal E (fst (fst x)) = Ok (VStr (fst (snd x)), None) /\ unmarshal E (snd (fst x)) = Ok (snd (snd x), None)) l ->
  unmarshal E (123 :: commas (map (fun x => fst (fst x) ++ 58 :: snd (fst x)) l) ++ [125]) =
  Ok (fold_left (fun o x => fst (set_at E o (arg_v (snd (snd x))) (PStr (fst (snd x))) [])) l new_object, None).
Proof. exact object_joined. Qed.
Print Assumptions C89_object_of.

(** What a path leads to has a text of its own inside the text of the document.  Any other accepted text may
    be put there, and the value changes at that place only.  (Blanks around it keep numbers apart: commas may be
    missing.) *)
Theorem C89_part : forall (E : Env) b v ps hs x, Forall is_byte b -> unmarshal E b = Ok (v, None) -> leads v ps hs x ->
  exists pre t post, b = pre ++ t ++ post /\ unmarshal E t = Ok (x, None) /\
  forall s t' x', Forall is_byte t' -> unmarshal E t' = Ok (x', None) -> s = [32] \/ s = [] /\ no_number x' ->
    exists v', unmarshal E (pre ++ (s ++ t' ++ s) ++ post) = Ok (v', None) /\ changed (fun d d' => d = x /\ d' = x') hs v v'.
Proof. exact part_replaced. Qed.
Print Assumptions C89_part.

(** Missing commas, commas too many, a name twice. *)
Definition odd : bytes := bs " [1 2,,true3""x""{""a"":[],""b"":null,""a"":4}]".
Definition odd_value : V := match unmarshal env0 odd with Ok (v, _) => v | _ => VNil end.
Example C89_elements : exists n1 n2 n3 n4,
  unmarshal env0 odd = Ok (VArr [n1; n2; VBool true; n3; VStr (bs "x"); VObj 3 [(bs "a", (3, n4)); (bs "b", (2, VNull))] None], None) /\
  unmarshal env0 (bs "1") = Ok (n1, None) /\ unmarshal env0 (bs "2") = Ok (n2, None) /\
  unmarshal env0 (bs "3") = Ok (n3, None) /\ unmarshal env0 (bs "4") = Ok (n4, None).
Proof. eexists _, _, _, _. split; [vm_compute; reflexivity|]. repeat split; vm_compute; reflexivity. Qed.
(** The member that holds is the last one of its name; its text is the one to replace. *)
Example C89_last : exists v' n4,
  unmarshal env0 (bs "4") = Ok (n4, None) /\
  leads odd_value [PInt 5; PStr (bs "a")] [HIdx 5; HKey (bs "a")] n4 /\
  unmarshal env0 (bs " [1 2,,true3""x""{""a"":[],""b"":null,""a"":" ++ bs "false" ++ bs "}]") = Ok (v', None) /\
  leads v' [PInt 5; PStr (bs "a")] [HIdx 5; HKey (bs "a")] (VBool false).
Proof.
  eexists _, _. split; [vm_compute; reflexivity|]. split; [|split; [vm_compute; reflexivity|]].
  - unfold odd_value. match goal with |- leads ?v _ _ _ => let v' := eval vm_compute in v in change v with v' end.
    match goal with |- leads (VArr [?a; ?b; ?c; ?d; ?e; ?f]) _ _ _ => apply (leads_elem [a; b; c; d; e] f [] (PInt 5) 5) end; [reflexivity|now left|].
    eapply leads_key; [left; reflexivity|]. constructor.
  - match goal with |- leads (VArr [?a; ?b; ?c; ?d; ?e; ?f]) _ _ _ => apply (leads_elem [a; b; c; d; e] f [] (PInt 5) 5) end; [reflexivity|now left|].
    eapply leads_key; [left; reflexivity|]. constructor.
Qed.
(** Without blanks a number put next to another runs into it. *)
Example C89_blanks_needed : exists n1 n12,
  unmarshal env0 (bs "[1""x""]") = Ok (VArr [n1; VStr (bs "x")], None) /\ unmarshal env0 (bs "[12]") = Ok (VArr [n12], None).
Proof. eexists _, _. split; vm_compute; reflexivity. Qed.
