(** C93: storing a document as text between calls cannot be noticed.  [clean v]: a JSON value with strings and names in
    UTF-8 and numbers whose text Unmarshal takes; [clean_call]: Get, MustGet, Set, Insert, Append, Delete (case-sensitive, with
    clean arguments), SortArray, Len and ValueType, also on the value that Get found; [Save W o]: Marshal with options [o] and Unmarshal of the text. *)
From Verif Require Import Base Float64 Value Opt Marshal Unmarshal Access Path Edit Compare SpecJson SpecValue SpecLax SpecText SpecOpts SpecPath SpecSafe SpecSetSplice SpecTwin SpecSave
  TwinProof SaveProof SaveOrderProof SaveOmitProof ExampleWorld.

(** Any calls, with any saves in between: the calls end as without them, and the documents are Equal. *)
Theorem C93_unseen : forall (E : Env) v l, clean v -> Forall clean_action l ->
  snd (with_saves E v l) = snd (series E v (calls l)) /\
  forall W path, equal W path (fst (with_saves E v l)) (fst (series E v (calls l))) = true.
Proof. exact saves_unseen. Qed.
Print Assumptions C93_unseen.

(** A save succeeds and gives an Equal document that is clean again. *)
Theorem C93_save : forall (E : Env) (W : World) (o : opt) v, opt_ws o -> o_omit_null o = false -> clean v ->
  exists b w, marshal_opt E W o v = Ok b /\ unmarshal E b = Ok (w, None) /\ clean w /\ forall W' path, equal W' path v w = true.
Proof. exact save_reads_back. Qed.
Print Assumptions C93_save.

(** JSON texts give clean documents, and calls and saves leave them so. *)
Theorem C93_json : forall (E : Env) b j v, Forall is_byte b -> json_doc b j -> unmarshal E b = Ok (v, None) -> clean v.
Proof. exact json_clean. Qed.
Print Assumptions C93_json.
Theorem C93_kept : forall (E : Env) v l, clean v -> Forall clean_action l -> clean (fst (with_saves E v l)).
Proof. exact calls_keep_clean. Qed.
Print Assumptions C93_kept.

(** If the saves write the members in the order of setting, they do not change that order either: the texts in the order
    of setting are the same bytes.  [numbered n v]: no object has more than [n] members or settings; [in_turn n]: the same
    of the new values, and saves with OptSetSequence. *)
Theorem C93_order : forall (E : Env) n v l, 0 <= n -> n + Z.of_nat (List.length l) < two32 ->
  clean v -> numbered n v -> Forall clean_action l -> Forall (in_turn n) l ->
  forall W W' o, by_setting o -> o_omit_null o = false ->
  marshal_opt E W o (fst (with_saves E v l)) = marshal_opt E W' o (fst (series E v (calls l))).
Proof. exact saves_keep_order. Qed.
Print Assumptions C93_order.
Theorem C93_numbered : forall (E : Env) b v, Forall is_byte b -> Z.of_nat (List.length b) < two32 -> unmarshal E b = Ok (v, None) ->
  numbered (Z.of_nat (List.length b)) v.
Proof. exact parsed_numbered. Qed.
Print Assumptions C93_numbered.

(** Saves under OptOmitNull: of documents without null members, where the calls bring none in. *)
Theorem C93_omit : forall (E : Env) v l, clean v -> no_null_members v -> Forall null_safe l ->
  snd (with_saves E v l) = snd (series E v (calls l)) /\
  forall W path, equal W path (fst (with_saves E v l)) (fst (series E v (calls l))) = true.
Proof. exact omitting_saves_unseen. Qed.
Print Assumptions C93_omit.
Theorem C93_omit_order : forall (E : Env) n v l, 0 <= n -> n + Z.of_nat (List.length l) < two32 ->
  clean v -> numbered n v -> no_null_members v -> Forall null_safe l -> Forall (in_turn n) l ->
  forall W W' o, by_setting o ->
  marshal_opt E W o (fst (with_saves E v l)) = marshal_opt E W' o (fst (series E v (calls l))).
Proof. exact omitting_saves_keep_order. Qed.
Print Assumptions C93_omit_order.

Definition read (b : bytes) : V := match unmarshal env0 b with Ok (v, _) => v | _ => VNil end.
Definition some_calls (save : list action) : list action :=
  [Call (world1, opt0, ASet (arg_v (VArr [VNull])) (PStr (bs "b")) [PStr (bs "c"); PInt 0])] ++ save ++
  [Call (world2, opt0, ADelete false (PStr (bs "a")) [PInt (-1)])] ++ save ++
  [Call (world1, opt0, AGet false (PStr (bs "a")) [PInt 1]);
   Call (world2, opt0, AAppend true (arg_v (VStr (bs "x"))) [PStr (bs "b"); PStr (bs "c"); PInt (-1)])].
Definition saving : action := Save world2 (combine_options opt0 [OIndent [] (bs "  "); OLess (Some default_string_sequence)]).
Example C93_instance :
  let v := read (bs "{""a"":[1.50,{""y"":2}],""d"":""é""}") in
  snd (with_saves env0 v (some_calls [saving])) = [Ok tt; Ok tt; Err ErrOutOfRange; Ok tt] /\
  snd (series env0 v (calls (some_calls [saving]))) = [Ok tt; Ok tt; Err ErrOutOfRange; Ok tt] /\
  marshal_opt env0 world1 (combine_options opt0 [OSetSeq]) (fst (with_saves env0 v (some_calls []))) = Ok (bs "{""a"":[1.50],""d"":""\u00E9"",""b"":{""c"":[[""x"",null]]}}") /\
  marshal_opt env0 world1 (combine_options opt0 [OSetSeq]) (fst (with_saves env0 v (some_calls [saving]))) = Ok (bs "{""a"":[1.50],""b"":{""c"":[[""x"",null]]},""d"":""\u00E9""}") /\
  Forall clean_action (some_calls [saving]).
Proof.
  cbv zeta. do 4 (split; [vm_compute; reflexivity|]).
  assert (W : forall s, Forall (fun c => 0 <= c < 128) s -> well_formed s).
  { intros s H. exists s. induction H as [|c s Hc _ [IH1 IH2]]; [split; [constructor|reflexivity]|]. split; [constructor; [unfold scalar; lia|exact IH1]|].
    unfold utf8_enc in *. cbn [flat_map]. rewrite <- IH2. unfold utf8. now rewrite (proj2 (Z.ltb_lt c 128)) by lia. }
  assert (P : forall s, Forall (fun c => 0 <= c < 128) s -> clean_param (PStr s)) by (intros s H; split; [exact I|]; intros k [= <-]; now apply W).
  assert (Q : forall z, clean_param (PInt z)) by (intros z; split; [exact I|discriminate]).
  assert (A : forall c, In c [97; 98; 99; 120] -> Forall (fun c => 0 <= c < 128) [c]) by (intros c Hc; constructor; [|constructor]; cbn in Hc; lia).
  cbn [some_calls app]. repeat constructor; cbn; try (apply P, A; cbn; tauto); try apply Q; try discriminate; try (apply W, A; cbn; tauto); try lia.
Qed.
(** Sorted saves change the order of setting (above: d goes behind b); saves in set order do not, also where a member
    has been set again. *)
Definition saving_set : action := Save world2 (combine_options opt0 [OSetSeq; OIndent [] (bs " ")]).
Definition more_calls : list action :=
  [saving_set; Call (world1, opt0, ASet (arg_v VNull) (PStr (bs "z")) []); saving_set; Call (world2, opt0, ASet (arg_v (VBool true)) (PStr (bs "a")) [PStr (bs "k")]); saving_set].
Example C93_order_instance :
  let v := read (bs "{""z"":1,""y"":2,""a"":{""m"":3}}") in
  marshal_opt env0 world1 (combine_options opt0 [OSetSeq]) (fst (with_saves env0 v more_calls)) = Ok (bs "{""y"":2,""a"":{""m"":3,""k"":true},""z"":null}") /\
  marshal_opt env0 world2 (combine_options opt0 [OSetSeq]) (fst (series env0 v (calls more_calls))) = Ok (bs "{""y"":2,""a"":{""m"":3,""k"":true},""z"":null}") /\
  numbered 25 v /\ Forall (in_turn 25) more_calls.
Proof.
  cbv zeta. split; [vm_compute; reflexivity|]. split; [vm_compute; reflexivity|]. split.
  - apply (C93_numbered env0 (bs "{""z"":1,""y"":2,""a"":{""m"":3}}")); [repeat constructor; vm_compute; intuition discriminate|reflexivity|vm_compute; reflexivity].
  - repeat constructor.
Qed.
(** Sorting by Len inside the document, and going on with the value found. *)
Definition by_len (x y : V) : bool := match api_len x, api_len y with Ok a, Ok b => (a <? b)%nat | _, _ => false end.
Definition sort_calls (save : list action) : list action :=
  [Call (world1, opt0, AInto false (PStr (bs "a")) [])] ++ save ++ [Call (world2, opt0, ASort (Some by_len))] ++ save ++
  [Call (world1, opt0, AMustGet false (PInt 7) []); Call (world1, opt0, AGet false (PInt 7) [])].
Example C93_sort_instance :
  let v := read (bs "{""a"":[[1,2],{""x"":0},[]],""d"":1}") in
  snd (with_saves env0 v (sort_calls [saving])) = [Ok tt; Ok tt; Ok tt; Err ErrOutOfRange] /\
  marshal_opt env0 world1 opt0 (fst (with_saves env0 v (sort_calls [saving]))) = Ok (bs "[[],{""x"":0},[1,2]]") /\
  marshal_opt env0 world1 opt0 (fst (series env0 v (calls (sort_calls [])))) = Ok (bs "[[],{""x"":0},[1,2]]").
Proof. cbv zeta. do 2 (split; [vm_compute; reflexivity|]). vm_compute; reflexivity. Qed.
Example C93_by_len : clean_call (ASort (Some by_len)).
Proof.
  constructor. intros x x' y y' Hx Hy. unfold by_len. now rewrite (proj2 (twins_kind x x' Hx)), (proj2 (twins_kind y y' Hy)).
Qed.
(** A document without null members, though with a null element, saved under OptOmitNull. *)
Definition saving_omit : action := Save world2 (combine_options opt0 [OOmitNull true]).
Definition saving_both : action := Save world2 (combine_options opt0 [OSetSeq; OOmitNull true]).
Definition omit_order_calls : list action :=
  [saving_both; Call (world1, opt0, ASet (arg_v (VBool true)) (PStr (bs "d")) []); saving_both; Call (world2, opt0, ASet (arg_v (VBool false)) (PStr (bs "a")) []); saving_both].
Example C93_omit_order_instance :
  let v := read (bs "{""d"":[null],""c"":1}") in
  marshal_opt env0 world1 (combine_options opt0 [OSetSeq]) (fst (with_saves env0 v omit_order_calls)) = Ok (bs "{""c"":1,""d"":true,""a"":false}") /\
  Forall (in_turn 16) omit_order_calls.
Proof. cbv zeta. split; [vm_compute; reflexivity|]. repeat constructor. Qed.
Definition omit_calls : list action :=
  [saving_omit; Call (world1, opt0, AAppend false (arg_v VNull) [PStr (bs "a")]); saving_omit; Call (world1, opt0, AGet false (PStr (bs "a")) [PInt 1])].
Example C93_omit_instance :
  let v := read (bs "{""a"":[null],""d"":{""e"":1}}") in
  snd (with_saves env0 v omit_calls) = [Ok tt; Ok tt] /\
  marshal_opt env0 world1 (combine_options opt0 [OSetSeq]) (fst (series env0 v (calls omit_calls))) = Ok (bs "{""a"":[null,null],""d"":{""e"":1}}") /\
  no_null_members v /\ Forall null_safe omit_calls.
Proof.
  cbv zeta. do 2 (split; [vm_compute; reflexivity|]). split; [vm_compute; repeat constructor; discriminate|].
  assert (P : clean_param (PStr (bs "a"))) by (split; [exact I|]; intros k [= <-]; exists [97]; split; [repeat constructor; unfold scalar; lia|reflexivity]).
  repeat constructor; apply P.
Qed.
(** Without that condition a save under OptOmitNull loses the null, and the next Get fails. *)
Example C93_omit_needed :
  let v := read (bs "{""a"":null}") in let o := combine_options opt0 [OOmitNull true] in
  snd (with_saves env0 v [Save world1 o; Call (world1, opt0, AGet false (PStr (bs "a")) [])]) = [Err ErrNotFound] /\
  snd (series env0 v [(world1, opt0, AGet false (PStr (bs "a")) [])]) = [Ok tt].
Proof. cbv zeta. split; vm_compute; reflexivity. Qed.
(** So is that on strings: names that are not UTF-8 come back repaired. *)
Example C93_utf8_needed :
  let v := VObj 1 [([255], (1, VNull))] None in
  snd (with_saves env0 v [Save world1 opt0; Call (world1, opt0, AGet false (PStr [255]) [])]) = [Err ErrNotFound] /\
  snd (series env0 v [(world1, opt0, AGet false (PStr [255]) [])]) = [Ok tt].
Proof. cbv zeta. split; vm_compute; reflexivity. Qed.
