(** Properties over histories of calls (C22, C23). *)
From Verif Require Import Base Float64 Value Scan Unmarshal Opt Marshal Access Path Edit Iter GoValue Import
  SpecJson SpecValue SpecText SpecLax SpecOrder SpecOut SpecOpts SpecPath SpecHistory
  HistoryClaims OrderHistory ExampleWorld.

(** C22.  In an object with any history, caseless access to [k] finds a present
    member with a name equal to [k] up to letter case, [k] itself if it is
    there; there is no such name if nothing is found. *)
Theorem C22_caseless_get : forall (E : Env) (W : World) n i kvs lo k, history E n (VObj i kvs lo) ->
  (exists k' id x, caseless_match E k kvs k' /\ In (k', (id, x)) kvs /\
     snd (caseless_get E W (VObj i kvs lo) (PStr k) []) = Ok x) \/
  ((forall k', In k' (map fst kvs) -> ~ same_letters E k k') /\
   snd (caseless_get E W (VObj i kvs lo) (PStr k) []) = Err ErrNotFound).
Proof. exact caseless_get_spec. Qed.
Print Assumptions C22_caseless_get.

(** Caseless deletion takes away one such member. *)
Theorem C22_caseless_delete : forall (E : Env) (W : World) n i kvs lo k, history E n (VObj i kvs lo) ->
  (exists k' v', caseless_match E k kvs k' /\ caseless_delete E W (VObj i kvs lo) (PStr k) [] = (v', Ok tt) /\
     removed (PStr k') (VObj i kvs lo) v') \/
  ((forall k', In k' (map fst kvs) -> ~ same_letters E k k') /\
   exists v', caseless_delete E W (VObj i kvs lo) (PStr k) [] = (v', Err ErrNotFound) /\ forget v' = forget (VObj i kvs lo)).
Proof. exact caseless_delete_spec. Qed.
Print Assumptions C22_caseless_delete.

(** A path is followed step by step; what a step finds has a history too ([h_found]). *)
Theorem C22_caseless_path : forall (E : Env) (W : World) v p q r, plain p ->
  snd (get E W true v p (q :: r)) =
  match snd (get E W true v p []) with
  | Ok c => snd (get E W true c q r)
  | e => e
  end.
Proof. exact caseless_chain. Qed.
Print Assumptions C22_caseless_path.

(** Ordinary access gives the same after a caseless call as before. *)
Theorem C22_ordinary : forall (E : Env) (W W' : World) v q r p o,
  same_view (snd (get E W false (fst (get E W' true v q r)) p o)) (snd (get E W false v p o)).
Proof. exact ordinary_get_unaffected. Qed.
Print Assumptions C22_ordinary.

Definition ex22_a : V := VObj 1 [(bs "Name", (1, VBool true))] None.
Definition ex22_b : V := fst (caseless_get env0 world1 ex22_a (PStr (bs "NAME")) []).
Definition ex22_c : V := fst (set_at env0 ex22_b (arg_v VNull) (PStr (bs "naMe")) []).
Definition ex22_d : V := fst (delete_at env0 world2 false ex22_c (PStr (bs "Name")) []).

Example C22_instance :
  unmarshal env0 (bs "{""Name"":true}") = Ok (ex22_a, None) /\
  history env0 14 ex22_d /\
  snd (caseless_get env0 world1 ex22_a (PStr (bs "NAME")) []) = Ok (VBool true) /\
  snd (caseless_get env0 world1 ex22_c (PStr (bs "Name")) []) = Ok (VBool true) /\
  snd (caseless_get env0 world1 ex22_c (PStr (bs "naMe")) []) = Ok VNull /\
  snd (caseless_get env0 world1 ex22_d (PStr (bs "NAME")) []) = Ok VNull /\
  snd (caseless_get env0 world1 ex22_d (PStr (bs "other")) []) = Err ErrNotFound /\
  snd (get env0 world1 false ex22_d (PStr (bs "NAME")) []) = Err ErrNotFound.
Proof.
  assert (U : unmarshal env0 (bs "{""Name"":true}") = Ok (ex22_a, None)) by (vm_compute; reflexivity).
  split; [exact U|]. split; [|repeat split; vm_compute; reflexivity].
  unfold ex22_d, ex22_c. apply h_delete. change 14%nat with (S (13 + 0)). apply h_set; [|apply h_fresh; exact I].
  unfold ex22_b, caseless_get. cbn [ex22_a]. apply h_get. apply (h_parsed env0 (bs "{""Name"":true}")); [|exact U].
  vm_compute. repeat constructor; discriminate.
Qed.

(** A map with a *V that has been searched caselessly is imported; then the copy
    inside is set to. *)
Definition ex22_g : gov := GMap (Some [(KStr (bs "Doc"), GVal ex22_b); (KStr (bs "raw"), GJson (MOut (Ok (bs "{""K"":1}"))))]).
Definition ex22_h : V := match import env0 world1 opt0 [] ex22_g with Ok (v, _) => v | _ => VNil end.
Definition ex22_i : V := fst (set_at env0 (fst (caseless_get env0 world1 ex22_h (PStr (bs "RAW")) [PStr (bs "k")])) (arg_v VNull) (PStr (bs "doc")) []).

Example C22_import_instance :
  history env0 24 ex22_i /\
  snd (caseless_get env0 world1 ex22_i (PStr (bs "RAW")) [PStr (bs "k")]) = snd (get env0 world1 false ex22_i (PStr (bs "raw")) [PStr (bs "K")]) /\
  snd (caseless_get env0 world1 ex22_i (PStr (bs "Doc")) [PStr (bs "NAME")]) = Ok (VBool true) /\
  snd (caseless_get env0 world1 ex22_i (PStr (bs "doc")) []) = Ok VNull.
Proof.
  split; [|repeat split; vm_compute; reflexivity].
  unfold ex22_i. change 24%nat with (S (23 + 0)). apply h_set; [|apply h_fresh; exact I]. unfold caseless_get. apply h_get.
  change 23%nat with (13 + data_size env0 world1 opt0 ex22_g)%nat.
  apply (h_import env0 13 world1 opt0 [] ex22_g ex22_h None).
  - intros x Hx. inversion Hx as [| | |m k g y Hi Hc| | |]; subst. destruct Hi as [Hi|[Hi|[]]]; injection Hi as <- <-.
    + inversion Hc; subst. unfold ex22_b, caseless_get. apply h_get. apply (h_parsed env0 (bs "{""Name"":true}")); [|vm_compute; reflexivity].
      vm_compute. repeat constructor; discriminate.
    + inversion Hc.
  - intros b Hb. inversion Hb as [| | | | |m k g y Hi Hc| | |]; subst. destruct Hi as [Hi|[Hi|[]]]; injection Hi as <- <-.
    + inversion Hc.
    + inversion Hc; subst. vm_compute. repeat constructor; discriminate.
  - vm_compute. reflexivity.
Qed.

(** C23 is false: the counter has 32 bits.  After "a" was set once and then "b"
    2^32 - 1 times, the member set last is written first. *)
Theorem C23_refuted : forall (E : Env) (W : World), exists n v,
  set_history E n v [bs "a"; bs "b"] /\
  marshal_opt E W (combine_options opt0 [OSetSeq]) v = Ok (bs "{""b"":false,""a"":true}").
Proof. exact wrapped_order. Qed.
Print Assumptions C23_refuted.

(** C23 for objects whose members were set less than 2^32 times: the names in
    the output are the names in the order of last setting.  Missing: longer
    histories, OptOmitEmpty, strings with U+000B and number texts that are not
    literals. *)
Theorem C23_set_order_partial : forall (E : Env) (W : World) (o : opt) n v ks,
  set_history E n v ks -> Z.of_nat n < two32 ->
  opt_ws o -> o_omit_null o = false -> json_typed v -> all_text str_ok (fun _ src => rfc_lit src) v ->
  o_less o = None -> o_keyseq o = [] -> o_setseq o = true ->
  exists b ms, marshal_opt E W o v = Ok b /\ json_doc b (JObj ms) /\ Forall2 fixed ks (map fst ms).
Proof. exact set_order_output. Qed.
Print Assumptions C23_set_order_partial.

(** The members of every object inside are written by the numbers they got when
    they were set, and no two have the same. *)
Theorem C23_inner_order_partial : forall (E : Env) (W : World) (o : opt) n v,
  history E n v -> Z.of_nat n < two32 ->
  opt_ws o -> o_omit_null o = false -> json_typed v -> all_text str_ok (fun _ src => rfc_lit src) v ->
  o_less o = None -> o_keyseq o = [] -> o_setseq o = true ->
  exists b j, marshal_opt E W o v = Ok b /\ json_doc b j /\ shows num_text false by_id v j.
Proof. exact history_order_output. Qed.
Print Assumptions C23_inner_order_partial.

(** Set below a member is Set on that member, so that inner objects have a
    [set_history] of their own; the outer order stays. *)
Theorem C23_set_inside : forall (E : Env) i kvs lo x k id c q r c' y,
  NoDup (map fst kvs) -> In (k, (id, c)) kvs -> set_at E c x q r = (c', Ok y) ->
  exists kvs', set_at E (VObj i kvs lo) x (PStr k) (q :: r) = (VObj i kvs' lo, Ok y) /\
    In (k, (id, c')) kvs' /\
    map (fun e => (fst e, fst (snd e))) kvs' = map (fun e => (fst e, fst (snd e))) kvs /\
    forall e, fst e <> k -> In e kvs' <-> In e kvs.
Proof. exact set_inside. Qed.
Print Assumptions C23_set_inside.

Definition ex23_a : V := VObj 2 [(bs "z", (1, VObj 0 [] None)); (bs "y", (2, VNull))] None.
Definition ex23_b : V := fst (set_at env0 ex23_a (arg_v (VBool true)) (PStr (bs "x")) [PStr (bs "n")]).
Definition ex23_c : V := fst (set_at env0 ex23_b (arg_v (VBool true)) (PStr (bs "z")) [PStr (bs "n")]).
Definition ex23_d : V := fst (set_at env0 ex23_c (arg_v (VBool false)) (PStr (bs "y")) []).
Definition ex23_e : V := fst (delete_at env0 world1 false ex23_d (PStr (bs "x")) []).

Example C23_instance :
  set_history env0 4 ex23_e [bs "z"; bs "y"] /\
  marshal_opt env0 world2 (combine_options opt0 [OSetSeq]) ex23_d =
    Ok (bs "{""z"":{""n"":true},""x"":{""n"":true},""y"":false}") /\
  marshal_opt env0 world2 (combine_options opt0 [OSetSeq]) ex23_e = Ok (bs "{""z"":{""n"":true},""y"":false}").
Proof.
  split; [|split; vm_compute; reflexivity].
  change [bs "z"; bs "y"] with (without (bs "x") [bs "z"; bs "x"; bs "y"]).
  apply (sh_delete env0 4 ex23_d _ world1 (bs "x")); [|reflexivity].
  change [bs "z"; bs "x"; bs "y"] with (without (bs "y") [bs "z"; bs "y"; bs "x"] ++ [bs "y"]).
  apply (sh_set env0 3 ex23_c _ (arg_v (VBool false)) (bs "y") [] _ (VBool false)); [|apply Forall_nil|reflexivity|now left].
  apply (sh_set_inside env0 3 ex23_b _ (arg_v (VBool true)) (bs "z") [PStr (bs "n")] _ (VBool true));
    [|repeat constructor|reflexivity|discriminate|now left].
  change [bs "z"; bs "y"; bs "x"] with (without (bs "x") [bs "z"; bs "y"] ++ [bs "x"]).
  apply (sh_set env0 2 ex23_a _ (arg_v (VBool true)) (bs "x") [PStr (bs "n")] _ (VBool true));
    [|repeat constructor|reflexivity|right; intros [H|[H|[]]]; discriminate].
  change [bs "z"; bs "y"] with (without (bs "y") [bs "z"] ++ [bs "y"]).
  apply (sh_set env0 1 (VObj 1 [(bs "z", (1, VObj 0 [] None))] None) _ (arg_v VNull) (bs "y") [] _ VNull);
    [|apply Forall_nil|reflexivity|now left].
  change [bs "z"] with (without (bs "z") [] ++ [bs "z"]).
  apply (sh_set env0 0 new_object _ (arg_v (VObj 0 [] None)) (bs "z") [] _ (VObj 0 [] None));
    [apply sh_new|apply Forall_nil|reflexivity|now left].
Qed.
