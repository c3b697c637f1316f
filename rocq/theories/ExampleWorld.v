(** Two concrete worlds (insertion sort; map iteration in list order, and in
    reverse), showing that [World] is inhabited and that iteration order varies. *)
From Verif Require Import Base Utf8 Float64 Value Opt Marshal.
From Coq Require Import Sorted.

Section Ins.
Variable less : nat -> nat -> bool.
Fixpoint ins (x : nat) (l : list nat) : list nat :=
  match l with
  | [] => [x]
  | y :: r => if less x y then x :: y :: r else y :: ins x r
  end.
Definition isort (n : nat) : list nat := fold_right ins [] (rev (seq 0 n)).

Lemma ins_perm x l : Permutation (ins x l) (x :: l).
Proof.
  induction l as [|y r IH]; cbn; [reflexivity|]. destruct (less x y); [reflexivity|].
  rewrite IH. constructor.
Qed.
Lemma fold_perm l : Permutation (fold_right ins [] l) l.
Proof. induction l as [|x l IH]; cbn; [reflexivity|]. rewrite ins_perm. now rewrite IH. Qed.
Lemma isort_perm n : Permutation (isort n) (seq 0 n).
Proof. unfold isort. rewrite fold_perm. symmetry. apply Permutation_rev. Qed.

Variable R : nat -> nat -> bool.
Hypothesis HR : strict_weak R.
Let le i j := R j i = false.
Lemma le_trans' i j k : le i j -> le j k -> le i k.
Proof.
  destruct HR as (Hi & Ht & Hw). unfold le. intros H1 H2.
  destruct (R k i) eqn:Eki; [|reflexivity].
  destruct (R i j) eqn:Eij.
  - rewrite (Ht k i j Eki Eij) in H2. discriminate.
  - destruct (R j k) eqn:Ejk.
    + rewrite (Ht j k i Ejk Eki) in H1. discriminate.
    + rewrite (Hw k j i H2 Ejk H1 Eij) in Eki. discriminate.
Qed.
Lemma ins_sorted n x l : (forall i j, (i < n)%nat -> (j < n)%nat -> i <> j -> less i j = R i j) ->
  (x < n)%nat -> Forall (fun y => (y < n)%nat) l -> ~ In x l ->
  ForallOrdPairs le l -> ForallOrdPairs le (ins x l).
Proof.
  intros Hl Hx. induction l as [|y r IH]; intros Hb Hni Hs; cbn; [repeat constructor|].
  inversion Hb; subst. inversion Hs; subst. rewrite Hl; auto; [|intros ->; apply Hni; now left].
  destruct (R x y) eqn:Exy.
  - constructor; [|exact Hs].
    assert (Hxy : le x y).
    { unfold le. destruct HR as (Hi & Ht & _). destruct (R y x) eqn:Eyx; [|reflexivity].
      pose proof (Ht x y x Exy Eyx) as C. rewrite Hi in C. discriminate. }
    constructor; [exact Hxy|]. eapply Forall_impl; [|eassumption]. intros z Hz. exact (le_trans' x y z Hxy Hz).
  - constructor; [|apply IH; auto; intros C; apply Hni; now right].
    rewrite Forall_forall. intros z Hz. apply (Permutation_in z (ins_perm x r)) in Hz as [<-|Hz]; [exact Exy|].
    rewrite Forall_forall in *. auto.
Qed.
Lemma isort_sorted n : (forall i j, (i < n)%nat -> (j < n)%nat -> i <> j -> less i j = R i j) ->
  ForallOrdPairs le (isort n).
Proof.
  intros Hl. unfold isort.
  assert (Hb : Forall (fun y => (y < n)%nat) (rev (seq 0 n))).
  { apply Forall_forall. intros x Hx. apply in_rev, in_seq in Hx. lia. }
  assert (Hn : NoDup (rev (seq 0 n))).
  { eapply Permutation_NoDup; [apply Permutation_rev|]. apply seq_NoDup. }
  induction Hn as [|x l Hni Hn IH]; cbn; [constructor|]. inversion Hb; subst.
  apply (ins_sorted n); auto.
  - eapply Permutation_Forall; [symmetry; apply fold_perm|assumption].
  - intros C. apply Hni. eapply Permutation_in; [apply fold_perm|exact C].
Qed.
End Ins.

Definition world1 : World := {|
  w_ord := fun _ n => seq 0 n;
  w_ord_perm := fun _ n => Permutation_refl (seq 0 n);
  w_sort := isort;
  w_sort_perm := isort_perm;
  w_sort_sorted := fun less n R HR H => isort_sorted less R HR n H |}.

Definition world2 : World := {|
  w_ord := fun _ n => rev (seq 0 n);
  w_ord_perm := fun _ n => Permutation_sym (Permutation_rev (seq 0 n));
  w_sort := isort;
  w_sort_perm := isort_perm;
  w_sort_sorted := fun less n R HR H => isort_sorted less R HR n H |}.

(** An environment; its library functions are stubs. *)
Definition env0 : Env := {|
  oor_i64 := fun _ => 0; oor_u64 := fun _ => 0; to_lower := map (fun c => if (65 <=? c) && (c <=? 90) then c + 32 else c);
  fmt_float := fun _ _ _ _ => bs "0"; json_float := fun _ => bs "0"; to_f32 := fun f => f |}.
