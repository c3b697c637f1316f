(** General lemmas on lists, byte strings and association lists. *)
From Verif Require Import Base.
From Coq Require Export ZifyBool ZifyNat.
Ltac Zify.zify_post_hook ::= Z.div_mod_to_equations.

Notation len := (@List.length _).

Lemma rbind_ok {A B} (m : res A) (k : A -> res B) b :
  rbind m k = Ok b -> exists a, m = Ok a /\ k a = Ok b.
Proof. destruct m; simpl; try discriminate; eauto. Qed.

Lemma nth_error_app_here {A} (l : list A) x r : nth_error (l ++ x :: r) (List.length l) = Some x.
Proof. rewrite nth_error_app2 by lia. now rewrite Nat.sub_diag. Qed.

Lemma bget_here A x r : bget (A ++ x :: r) (List.length A) = Ok x.
Proof. unfold bget. now rewrite nth_error_app_here. Qed.

Lemma length_upd {A} (l : list A) i x : List.length (upd l i x) = List.length l.
Proof. revert i; induction l as [|h t IH]; intros [|i]; simpl; auto. Qed.

Lemma upd_app {A} (l : list A) y r x : upd (l ++ y :: r) (List.length l) x = l ++ x :: r.
Proof. induction l as [|h t IH]; simpl; [reflexivity|]. now rewrite IH. Qed.

Lemma bset_here A y r x : bset (A ++ y :: r) (List.length A) x = Ok (A ++ x :: r).
Proof.
  unfold bset. rewrite app_length. simpl.
  destruct (Nat.ltb_spec (List.length A) (List.length A + S (List.length r))); [|lia].
  now rewrite upd_app.
Qed.

Lemma bset_at A y r x i : i = List.length A -> bset (A ++ y :: r) i x = Ok (A ++ x :: r).
Proof. intros ->. apply bset_here. Qed.

Lemma bget_at A x r i : i = List.length A -> bget (A ++ x :: r) i = Ok x.
Proof. intros ->. apply bget_here. Qed.

Lemma skipn_app_len {A} (l r : list A) : skipn (List.length l) (l ++ r) = r.
Proof. rewrite skipn_app, Nat.sub_diag, skipn_all. reflexivity. Qed.

Lemma firstn_app_len {A} (l r : list A) : firstn (List.length l) (l ++ r) = l.
Proof. rewrite firstn_app, Nat.sub_diag, firstn_all. simpl. now rewrite app_nil_r. Qed.

Lemma skipn_app_at {A} (l r : list A) n : n = List.length l -> skipn n (l ++ r) = r.
Proof. intros ->; apply skipn_app_len. Qed.
Lemma firstn_app_at {A} (l r : list A) n : n = List.length l -> firstn n (l ++ r) = l.
Proof. intros ->; apply firstn_app_len. Qed.

Lemma bslice_app A s r i j :
  i = List.length A -> j = (i + List.length s)%nat -> bslice (A ++ s ++ r) i j = Ok s.
Proof.
  intros -> ->. unfold bslice. rewrite !app_length.
  destruct (Nat.leb_spec (List.length A) (List.length A + List.length s)); [|lia].
  destruct (Nat.leb_spec (List.length A + List.length s)
              (List.length A + (List.length s + List.length r))); [|lia].
  simpl. f_equal. rewrite skipn_app_len. apply firstn_app_at. lia.
Qed.

(** Splitting a list at a position. *)
Lemma split_at {A} (l : list A) i :
  (i <= List.length l)%nat -> exists a r, l = a ++ r /\ List.length a = i /\ skipn i l = r.
Proof.
  intros H. exists (firstn i l), (skipn i l). split; [|split].
  - now rewrite firstn_skipn.
  - rewrite firstn_length. lia.
  - reflexivity.
Qed.

Lemma skipn_decomp {A} (b : list A) off r :
  skipn off b = r -> (off <= List.length b)%nat ->
  exists a, b = a ++ r /\ List.length a = off.
Proof.
  intros <- H. exists (firstn off b). rewrite firstn_skipn, firstn_length. split; auto. lia.
Qed.

Lemma firstn_split_le {A} (a r : list A) n : (n <= List.length a)%nat -> firstn n (a ++ r) = firstn n a.
Proof.
  intros H. rewrite firstn_app. replace (n - List.length a)%nat with 0%nat by lia. simpl.
  now rewrite app_nil_r.
Qed.

Lemma beqb_refl a : beqb a a = true.
Proof. induction a as [|x a IH]; simpl; [reflexivity|]. now rewrite Z.eqb_refl, IH. Qed.

Lemma beqb_eq a b : beqb a b = true <-> a = b.
Proof.
  revert b; induction a as [|x a IH]; intros [|y b]; simpl; split; intro H; try congruence; auto.
  - apply andb_prop in H as [H1 H2]. apply Z.eqb_eq in H1. apply IH in H2. congruence.
  - inversion H; subst. now rewrite Z.eqb_refl, beqb_refl.
Qed.

Lemma beqb_neq a b : beqb a b = false <-> a <> b.
Proof.
  split; intro H.
  - intros ->. rewrite beqb_refl in H. discriminate.
  - destruct (beqb a b) eqn:E; [|reflexivity]. apply beqb_eq in E. contradiction.
Qed.

Lemma beqb_spec a b : reflect (a = b) (beqb a b).
Proof.
  destruct (beqb a b) eqn:E; constructor; [now apply beqb_eq|now apply beqb_neq].
Qed.

Lemma beqb_sym a b : beqb a b = beqb b a.
Proof.
  destruct (beqb_spec a b) as [->|H]; [now rewrite beqb_refl|].
  symmetry. apply beqb_neq. congruence.
Qed.

Lemma bytes_dec (a b : bytes) : {a = b} + {a <> b}.
Proof. destruct (beqb_spec a b); [left|right]; assumption. Qed.

(** Association lists. *)
Lemma alookup_aset_same {A} k (a : A) l : alookup k (aset k a l) = Some a.
Proof.
  induction l as [|[k' a'] l IH]; simpl.
  - now rewrite beqb_refl.
  - destruct (beqb_spec k k') as [->|H]; simpl; [now rewrite beqb_refl|].
    destruct (beqb_spec k k'); [contradiction|]. exact IH.
Qed.

Lemma alookup_aset_other {A} k k' (a : A) l : k <> k' -> alookup k (aset k' a l) = alookup k l.
Proof.
  intros H. induction l as [|[k2 a2] l IH]; simpl.
  - destruct (beqb_spec k k'); [contradiction|reflexivity].
  - destruct (beqb_spec k' k2) as [->|H2]; simpl.
    + destruct (beqb_spec k k2); [contradiction|reflexivity].
    + destruct (beqb_spec k k2); [reflexivity|exact IH].
Qed.

Lemma alookup_In {A} k (a : A) l : alookup k l = Some a -> In (k, a) l.
Proof.
  induction l as [|[k' a'] l IH]; simpl; [discriminate|].
  destruct (beqb_spec k k') as [->|H]; intros E; [inversion E; auto|right; auto].
Qed.

Lemma alookup_None {A} k (l : list (bytes * A)) : alookup k l = None <-> ~ In k (akeys l).
Proof.
  induction l as [|[k' a'] l IH]; simpl; [intuition congruence|].
  destruct (beqb_spec k k') as [->|H].
  - split; [discriminate|]. intros N; exfalso; auto.
  - rewrite IH. intuition congruence.
Qed.

Lemma alookup_Some_key {A} k (a : A) l : alookup k l = Some a -> In k (akeys l).
Proof. intros H. apply alookup_In in H. unfold akeys. change k with (fst (k, a)). now apply in_map. Qed.

Lemma alookup_NoDup_In {A} k (a : A) l : NoDup (akeys l) -> In (k, a) l -> alookup k l = Some a.
Proof.
  induction l as [|[k' a'] l IH]; simpl; [contradiction|].
  intros ND [E|I].
  - inversion E; subst. now rewrite beqb_refl.
  - inversion ND; subst. destruct (beqb_spec k k') as [->|H].
    + exfalso. apply H1. change k' with (fst (k', a)). now apply in_map.
    + apply IH; auto.
Qed.

Lemma akeys_aset {A} k (a : A) l :
  akeys (aset k a l) = if existsb (beqb k) (akeys l) then akeys l else akeys l ++ [k].
Proof.
  induction l as [|[k' a'] l IH]; simpl; [reflexivity|].
  destruct (beqb_spec k k') as [->|H]; simpl; [reflexivity|].
  unfold akeys in *. simpl. rewrite IH. now destruct existsb.
Qed.

Lemma existsb_beqb_In k l : existsb (beqb k) l = true <-> In k l.
Proof.
  rewrite existsb_exists. split.
  - intros (x & I & E). apply beqb_eq in E. now subst.
  - intros I. exists k. split; [assumption|apply beqb_refl].
Qed.

Lemma NoDup_app_single {A} (l : list A) x : NoDup l -> ~ In x l -> NoDup (l ++ [x]).
Proof.
  induction l as [|y l IH]; simpl; intros ND NI.
  - constructor; [intros []|constructor].
  - inversion ND; subst. constructor.
    + rewrite in_app_iff. simpl. intuition.
    + apply IH; auto.
Qed.

Lemma NoDup_aset {A} k (a : A) l : NoDup (akeys l) -> NoDup (akeys (aset k a l)).
Proof.
  intros H. rewrite akeys_aset. destruct (existsb (beqb k) (akeys l)) eqn:E; [assumption|].
  apply NoDup_app_single; [assumption|]. intros I. apply existsb_beqb_In in I. congruence.
Qed.

Lemma In_akeys_aset {A} k k' (a : A) l : In k (akeys (aset k' a l)) <-> k = k' \/ In k (akeys l).
Proof.
  rewrite akeys_aset. destruct (existsb (beqb k') (akeys l)) eqn:E.
  - apply existsb_beqb_In in E. intuition congruence.
  - rewrite in_app_iff. simpl. intuition.
Qed.

Lemma alookup_aremove_same {A} k (l : list (bytes * A)) : alookup k (aremove k l) = None.
Proof.
  induction l as [|[k' a'] l IH]; simpl; [reflexivity|].
  destruct (beqb_spec k k') as [->|H]; simpl; [exact IH|].
  destruct (beqb_spec k k'); [contradiction|exact IH].
Qed.

Lemma alookup_aremove_other {A} k k' (l : list (bytes * A)) :
  k <> k' -> alookup k (aremove k' l) = alookup k l.
Proof.
  intros H. induction l as [|[k2 a2] l IH]; simpl; [reflexivity|].
  destruct (beqb_spec k' k2) as [->|H2]; simpl.
  - destruct (beqb_spec k k2); [contradiction|exact IH].
  - destruct (beqb_spec k k2); [reflexivity|exact IH].
Qed.

Lemma akeys_aremove {A} k (l : list (bytes * A)) :
  akeys (aremove k l) = filter (fun x => negb (beqb k x)) (akeys l).
Proof.
  induction l as [|[k' a'] l IH]; simpl; [reflexivity|].
  destruct (beqb_spec k k'); simpl; [exact IH|]. unfold akeys in *. simpl. now rewrite IH.
Qed.

Lemma NoDup_aremove {A} k (l : list (bytes * A)) : NoDup (akeys l) -> NoDup (akeys (aremove k l)).
Proof. intros H. rewrite akeys_aremove. now apply NoDup_filter. Qed.

Lemma skipn_skipn {A} x y (l : list A) : skipn x (skipn y l) = skipn (x + y) l.
Proof.
  revert l; induction y as [|y IH]; intros l.
  - now rewrite Nat.add_0_r.
  - rewrite Nat.add_succ_r. destruct l; simpl; [apply skipn_nil|apply IH].
Qed.
