(** UnmarshalJSON into an existing value, and MarshalJSON before it. *)
From Coq Require Import Permutation.
From Verif Require Import Base Utf8 Float64 Value ValueLemmas Scan Unmarshal Opt Marshal Access SpecJson SpecValue SpecText SpecLax SpecOut
  SpecOpts SpecOrder SortProof OrderProof RoundTrip Path SpecPath Edit Iter Heap SpecHeap SpecShare HeapProof HeapCopy HeapGraph HeapClaims HeapTree HeapReload.
Local Open Scope nat_scope.

Lemma load_report E h a c b : nth_error h a = Some c ->
  (exists w h' s, unmarshal E b = Ok (w, None) /\ h_load E h (Some a) b = (h', Ok None) /\ unshared h' (Some a) w s /\
     (forall x, In x s -> x = a \/ List.length h <= x) /\
     (forall x, x < List.length h -> x <> a -> nth_error h' x = nth_error h x)) \/
  (exists w e, unmarshal E b = Ok (w, Some e) /\ h_load E h (Some a) b = (h, Err e)).
Proof.
  intros Ea. destruct (load_cases E h (Some a) b) as [(w & h' & a' & s & Eu & _ & El & [= <-] & R & N & I1 & F)|H]; [cbn; congruence| |now right].
  left. exists w, h', s. unfold unshared. auto 10.
Qed.

Lemma load_nil E h b h' r : h_load E h None b = (h', r) ->
  (forall x, x < List.length h -> nth_error h' x = nth_error h x) /\
  ((r = Panic /\ exists w, unmarshal E b = Ok (w, None)) \/ exists w e, unmarshal E b = Ok (w, Some e) /\ r = Err e).
Proof.
  intros El. unfold h_load in El. destruct (unmarshal_total E b) as (w & [e|] & Eu & _); rewrite Eu in El.
  - injection El as <- <-. split; [auto|]. right. exists w, e. auto.
  - pose proof (build_fixed h w) as F. destruct (h_build h w) as [h1 q]. cbn [deref] in El. injection El as <- <-.
    destruct F as [(L & _ & F) _]. split; [intros x Lx; apply F; auto|]. left. split; [reflexivity|]. now exists w.
Qed.

Lemma load_children E h a t b h' r k q u : shows h (Some a) t -> h_load E h (Some a) b = (h', r) ->
  step h (Some a) k q -> shows h q u -> shows h' q u.
Proof.
  intros Ht El Hs Hu. refine (load_apart E h (Some a) b h' r q u El _ Hu).
  intros Hr. exact (no_way_up h (Some a) t (Some a) k q Ht (reaches_here _ _) Hs Hr).
Qed.

Lemma marshal_load E W default h a c q v :
  opt_ws (combine_options default []) -> nth_error h a = Some c -> shows h q v ->
  json_typed v -> all_text (Forall is_byte) (fun _ src => lax_num src) v ->
  exists b h' v', marshal E W default [] v = Ok b /\ h_load E h (Some a) b = (h', Ok None) /\ shows h' (Some a) v' /\
    (all_objs names_distinct v -> same_json (fun _ src n' => lax_value src n') (o_omit_null (combine_options default [])) v v') /\
    (~ reaches h q (Some a) -> shows h' q v).
Proof.
  intros Ho Ea Hq Ht Hx. destruct (round_trip_text E W (combine_options default []) v Ho Ht Hx) as (b & v' & Hm & Hu & Hs).
  destruct (load_report E h a c b Ea) as [(w & h' & s & Eu & El & U & _)|(w & e & Eu & _)]; rewrite Hu in Eu; [|discriminate].
  injection Eu as <-. exists b, h', v'. split; [exact Hm|]. split; [exact El|]. split; [exists s; apply U|]. split; [exact Hs|].
  intros Hr. exact (load_apart E h (Some a) b h' _ q v El Hr Hq).
Qed.

(** *** SortArray *)
Lemma sort_inside W h v f l : deref h v = Some (CArr l) ->
  exists h' l', h_sort W h v (Some f) = (h', Ok None) /\ deref h' v = Some (CArr l') /\ Permutation l' l /\
    (exists g, alters h h' v (EPerm g)) /\
    forall R : ptr -> ptr -> bool, strict_weak_order R -> (forall x y, In x l -> In y l -> f h x y = R x y) ->
      ForallOrdPairs (fun x y => R y x = false) l'.
Proof.
  intros Ed. unfold h_sort. rewrite Ed. exists (store h v (CArr (go_sort W (f h) l))), (go_sort W (f h) l).
  split; [reflexivity|]. split; [eapply deref_store_same; exact Ed|]. split; [apply go_sort_perm|]. split.
  - destruct (edited_sort W l (f h)) as [g Hg]. exists g. eapply alters_store; eassumption.
  - intros R HR Hf. apply go_sort_sorted; [exact HR|]. intros i j x y _ Hx Hy. apply Hf; eapply nth_error_In; eassumption.
Qed.
Lemma sort_nothing W h v less h' r : h_sort W h v less = (h', r) ->
  (less = None \/ forall l, deref h v <> Some (CArr l)) ->
  h' = h /\ (r = Ok None \/ (r = Panic /\ deref h v = None /\ less <> None)).
Proof.
  intros H Hn. unfold h_sort in H. destruct less as [f|]; [|injection H as <- <-; auto].
  destruct Hn as [Hn|Hn]; [discriminate|].
  destruct (deref h v) as [c|]; [|injection H as <- <-; split; [reflexivity|]; right; repeat split; discriminate].
  destruct c; try (injection H as <- <-; auto; fail). exfalso. exact (Hn l eq_refl).
Qed.
