(** Rearranging lists by positions; [sort.Sort]. *)
From Verif Require Import Base Utf8 Float64 Value Opt Marshal ListLemmas.

Section Arrange.
Context {A : Type}.
Implicit Types (l : list A) (idx : list nat).

Lemma arrange_seq l : arrange l (seq 0 (List.length l)) = l.
Proof.
  unfold arrange.
  enough (H : forall pre l, flat_map (fun i => match nth_error (pre ++ l) i with Some x => [x] | None => [] end)
                 (seq (List.length pre) (List.length l)) = l) by exact (H [] l).
  clear l. intros pre l. revert pre. induction l as [|x l IH]; intros pre; [reflexivity|].
  cbn [List.length seq flat_map]. rewrite nth_error_app2 by lia. rewrite Nat.sub_diag. cbn [nth_error app].
  f_equal. specialize (IH (pre ++ [x])). rewrite app_length in IH. cbn [List.length] in IH.
  rewrite Nat.add_1_r in IH. rewrite <- app_assoc in IH. exact IH.
Qed.

Lemma arrange_perm l idx : Permutation idx (seq 0 (List.length l)) -> Permutation (arrange l idx) l.
Proof.
  intros H. rewrite <- (arrange_seq l) at 2. unfold arrange. now apply Permutation_flat_map.
Qed.

Lemma answers_nth (less : A -> A -> bool) l l2 i j x y :
  nth_error l i = Some x -> nth_error l2 j = Some y ->
  nth j (nth i (map (fun x => map (less x) l2) l) []) false = less x y.
Proof.
  intros Hx Hy. apply (map_nth_error (fun x => map (less x) l2)) in Hx.
  rewrite (nth_error_nth _ _ [] Hx). apply (map_nth_error (less x)) in Hy. now rewrite (nth_error_nth _ _ false Hy).
Qed.

Lemma go_sort_perm W less l : Permutation (go_sort W less l) l.
Proof. apply arrange_perm, w_sort_perm. Qed.
Lemma go_range_perm W p l : Permutation (go_range W p l) l.
Proof. apply arrange_perm, w_ord_perm. Qed.
End Arrange.

Lemma arrange_map {A B} (f : A -> B) l idx : arrange (map f l) idx = map f (arrange l idx).
Proof.
  unfold arrange. induction idx as [|i idx IH]; [reflexivity|]. cbn. rewrite IH, map_app. f_equal.
  destruct (nth_error l i) eqn:E.
  - now rewrite (map_nth_error _ _ _ E).
  - assert (N : nth_error (map f l) i = None).
    { apply nth_error_None. rewrite map_length. now apply nth_error_None. }
    now rewrite N.
Qed.

Lemma order_entries_perm W o pi path es : Permutation (order_entries W o pi path es) es.
Proof.
  unfold order_entries. pose proof (go_range_perm W path es) as R.
  destruct (o_less o); [etransitivity; [apply go_sort_perm|exact R]|].
  destruct (o_keyseq o); [|etransitivity; [apply go_sort_perm|exact R]].
  destruct (o_setseq o); [etransitivity; [apply go_sort_perm|exact R]|exact R].
Qed.

Lemma go_sort_map {A B} W (f : A -> B) less l :
  go_sort W less (map f l) = map f (go_sort W (fun x y => less (f x) (f y)) l).
Proof.
  unfold go_sort. rewrite <- arrange_map, map_length, map_map. do 2 f_equal.
  erewrite map_ext; [reflexivity|]. intros x. apply map_map.
Qed.
Lemma go_sort_ext {A} W (less less' : A -> A -> bool) l :
  (forall x y, In x l -> In y l -> less x y = less' x y) -> go_sort W less l = go_sort W less' l.
Proof.
  intros H. unfold go_sort. do 2 f_equal.
  enough (E : map (fun x => map (less x) l) l = map (fun x => map (less' x) l) l) by now rewrite E.
  apply map_ext_in. intros x Hx. apply map_ext_in. auto.
Qed.
Lemma go_range_map {A B} W p (f : A -> B) l : go_range W p (map f l) = map f (go_range W p l).
Proof. unfold go_range. now rewrite arrange_map, map_length. Qed.
