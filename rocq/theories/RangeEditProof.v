(** Iteration over an array whose callback edits it. *)
From Verif Require Import Base Utf8 Float64 Value Scan Opt Marshal Access Path Edit Iter RangeEdit SpecRangeEdit SortProof.
Local Open Scope nat_scope.

(** *** Lists *)
Lemma len_set_nth {A} n (x : A) l : List.length (set_nth n x l) = List.length l.
Proof. revert n; induction l as [|y l IH]; intros [|n]; cbn; auto. Qed.
Lemma nth_set_nth_ne {A} n k (x d : A) l : n <> k -> nth k (set_nth n x l) d = nth k l d.
Proof. revert n k; induction l as [|y l IH]; intros [|n] [|k] H; cbn; auto; try lia; apply IH; lia. Qed.
Lemma nth_set_nth_eq {A} n (x d : A) l : n < List.length l -> nth n (set_nth n x l) d = x.
Proof. revert n; induction l as [|y l IH]; intros [|n] H; cbn in *; try lia; auto; apply IH; lia. Qed.
Lemma set_nth_mid {A} (a : list A) x y b : set_nth (List.length a) x (a ++ y :: b) = a ++ x :: b.
Proof. induction a; cbn; congruence. Qed.
Lemma firstn_len_app {A} (a b : list A) : firstn (List.length a) (a ++ b) = a.
Proof. rewrite firstn_app, firstn_all, Nat.sub_diag. cbn. apply app_nil_r. Qed.
Lemma skipn_len_app {A} (a b : list A) : skipn (List.length a) (a ++ b) = b.
Proof. rewrite skipn_app, skipn_all, Nat.sub_diag. reflexivity. Qed.
Lemma skipn_len_cons {A} (a : list A) x b : skipn (S (List.length a)) (a ++ x :: b) = b.
Proof. induction a; cbn; auto. Qed.
Lemma firstn_len_cons {A} (a : list A) x b : firstn (S (List.length a)) (a ++ x :: b) = a ++ [x].
Proof. induction a; cbn; [reflexivity|]. f_equal. exact IHa. Qed.
Lemma split_nth {A} (l : list A) k : k < List.length l -> exists a x b, l = a ++ x :: b /\ List.length a = k.
Proof.
  intros H. destruct (nth_error l k) as [x|] eqn:E0; [|apply nth_error_None in E0; lia].
  apply nth_error_split in E0. destruct E0 as (a & b & -> & Hl). eauto.
Qed.
Lemma split_at {A} (l : list A) k : k <= List.length l -> exists a b, l = a ++ b /\ List.length a = k.
Proof. intros H. exists (firstn k l), (skipn k l). rewrite firstn_skipn, firstn_length. split; [reflexivity|lia]. Qed.

(** *** Slices *)
Lemma view_len m s : slice_ok m s -> List.length (view m s) = sl_len s.
Proof. intros [_ H]. unfold view. rewrite firstn_length. lia. Qed.
Lemma cells_view m s : slice_ok m s -> exists rest, cells m s = view m s ++ rest.
Proof. intros _. exists (skipn (sl_len s) (cells m s)). unfold view. now rewrite firstn_skipn. Qed.
Lemma cells_with m s c : sl_arr s < List.length m -> cells (with_cells m s c) s = c.
Proof. intros H. unfold cells, with_cells. now apply nth_set_nth_eq. Qed.
Lemma with_other m s c b : b <> sl_arr s -> nth b (with_cells m s c) [] = nth b m [].
Proof. intros H. unfold with_cells. apply nth_set_nth_ne. congruence. Qed.
Lemma with_len m s c : List.length (with_cells m s c) = List.length m.
Proof. apply len_set_nth. Qed.

Lemma view_with m s c n : sl_arr s < List.length m -> view (with_cells m s c) (Slice (sl_arr s) n) = firstn n c.
Proof. intros H. unfold view. cbn [sl_len]. f_equal. unfold cells, with_cells. cbn [sl_arr]. now apply nth_set_nth_eq. Qed.
Lemma ok_with m s c n : sl_arr s < List.length m -> n <= List.length c -> slice_ok (with_cells m s c) (Slice (sl_arr s) n).
Proof.
  intros H Hn. unfold slice_ok. rewrite with_len. cbn [sl_arr sl_len]. split; [exact H|].
  replace (cells _ _) with c; [exact Hn|]. symmetry. unfold cells, with_cells. cbn [sl_arr]. now apply nth_set_nth_eq.
Qed.

(** What a step may do to the memory: [w] is the content afterwards. *)
Record stepped (m : mem) (s : slice) (ms' : mem * slice) (w : list V) : Prop := {
  st_ok : slice_ok (fst ms') (snd ms');
  st_view : view (fst ms') (snd ms') = w;
  st_grow : List.length m <= List.length (fst ms');
  st_others : forall b, b < List.length m -> b <> sl_arr s ->
    nth b (fst ms') [] = nth b m [] /\ b <> sl_arr (snd ms');
}.

Lemma stepped_refl m s : slice_ok m s -> stepped m s (m, s) (view m s).
Proof. intros H. constructor; auto. Qed.

Lemma stepped_trans m s ms1 w1 ms2 w2 :
  stepped m s ms1 w1 -> stepped (fst ms1) (snd ms1) ms2 w2 -> stepped m s ms2 w2.
Proof.
  intros [o1 v1 g1 b1] [o2 v2 g2 b2]. constructor; auto; [lia|].
  intros b Hb Hne. destruct (b1 b Hb Hne) as [E1 N1]. destruct (b2 b ltac:(lia) N1) as [E2 N2]. split; [congruence|exact N2].
Qed.

(** A write into the array of the slice. *)
Lemma stepped_write m s c n : sl_arr s < List.length m -> n <= List.length c ->
  stepped m s (with_cells m s c, Slice (sl_arr s) n) (firstn n c).
Proof.
  intros H Hn. constructor; cbn [fst snd].
  - now apply ok_with.
  - now apply view_with.
  - now rewrite with_len.
  - intros b Hb Hne. split; [now apply with_other|exact Hne].
Qed.

Lemma append_stepped g m s x : slice_ok m s -> stepped m s (sl_append g (m, s) x) (view m s ++ [x]).
Proof.
  intros Ho. pose proof (view_len m s Ho) as Hl. destruct Ho as [Ha Hc]. unfold sl_append.
  destruct (Nat.ltb_spec (sl_len s) (List.length (cells m s))) as [Hlt|Hge].
  - destruct (cells_view m s (conj Ha Hc)) as (rest & Er). rewrite Er in *. rewrite app_length, Hl in Hlt.
    destruct rest as [|y rest]; [cbn in Hlt; lia|]. rewrite <- Hl at 1. rewrite set_nth_mid.
    replace (view m s ++ [x]) with (firstn (S (sl_len s)) (view m s ++ x :: rest)) by (rewrite <- Hl; apply firstn_len_cons).
    apply stepped_write; [exact Ha|]. rewrite app_length. cbn [List.length]. lia.
  - constructor; cbn [fst snd].
    + split; cbn [sl_arr sl_len]; [rewrite app_length; cbn; lia|]. unfold cells. cbn [sl_arr].
      rewrite app_nth2, Nat.sub_diag by lia. cbn [nth]. rewrite app_length, Hl. cbn [List.length]. lia.
    + unfold view at 1. cbn [sl_len]. unfold cells. cbn [sl_arr]. rewrite app_nth2, Nat.sub_diag by lia. cbn [nth].
      rewrite <- Hl. apply firstn_len_cons.
    + rewrite app_length. lia.
    + intros b Hb Hne. cbn [sl_arr]. split; [now apply app_nth1|lia].
Qed.

Lemma stepped_write_same m s c : sl_arr s < List.length m -> sl_len s <= List.length c ->
  stepped m s (with_cells m s c, s) (firstn (sl_len s) c).
Proof. intros H Hn. destruct s as [a n]. exact (stepped_write m (Slice a n) c n H Hn). Qed.

Lemma insert_stepped g m s k x : slice_ok m s -> k <= sl_len s ->
  stepped m s (m_insert_to_arr g (m, s) k x) (firstn k (view m s) ++ x :: skipn k (view m s)).
Proof.
  intros Ho Hk. pose proof (append_stepped g m s VNil Ho) as Hap. pose proof (view_len m s Ho) as Hl.
  unfold m_insert_to_arr. destruct (sl_append g (m, s) VNil) as [m1 s1].
  refine (stepped_trans _ _ _ _ _ _ Hap _). cbn [fst snd]. destruct Hap as [Ho1 Hv1 _ _]. cbn [fst snd] in *.
  pose proof (view_len m1 s1 Ho1) as Hl1. rewrite Hv1, app_length, Hl in Hl1. cbn [List.length] in Hl1.
  destruct (cells_view m1 s1 Ho1) as (rest & Er). rewrite Hv1 in Er.
  destruct (split_at (view m s) k) as (a & b & Eab & Hak); [lia|]. rewrite Eab in *. clear Eab.
  rewrite app_length in Hl. subst k. rewrite firstn_len_app, skipn_len_app, Er.
  assert (Ec : set_nth (List.length a) x (move (sl_len s1) (S (List.length a)) (List.length a) (((a ++ b) ++ [VNil]) ++ rest)) = a ++ x :: b ++ rest).
  { unfold move. replace (Nat.min _ _) with (List.length b) by lia. rewrite <- !app_assoc.
    assert (exists h q, b ++ [VNil] ++ rest = h :: q) as (h & q & Eh) by (destruct b; cbn; eauto).
    replace (firstn (S (List.length a)) _) with (a ++ [h]) by (rewrite Eh; symmetry; apply firstn_len_cons).
    rewrite skipn_len_app, firstn_len_app.
    replace (skipn _ _) with rest.
    - rewrite <- app_assoc. cbn [app]. apply set_nth_mid.
    - rewrite (app_assoc a b). replace (S (List.length a) + List.length b) with (S (List.length (a ++ b))) by (rewrite app_length; lia).
      symmetry. apply (skipn_len_cons (a ++ b) VNil rest). }
  rewrite Ec.
  replace (a ++ x :: b) with (firstn (sl_len s1) (a ++ x :: b ++ rest)).
  - apply stepped_write_same; [apply Ho1|]. rewrite !app_length. cbn [List.length]. rewrite app_length. lia.
  - replace (sl_len s1) with (List.length (a ++ x :: b)) by (rewrite app_length; cbn; lia).
    change (a ++ x :: b ++ rest) with (a ++ (x :: b) ++ rest). rewrite app_assoc. apply firstn_len_app.
Qed.

(** Deleting moves the elements behind; a nil is left at the end when nothing is behind. *)
Lemma delete_cells m s a y b rest : slice_ok m s -> view m s = a ++ y :: b -> cells m s = view m s ++ rest ->
  m_delete_in_arr (m, s) (List.length a) =
  (with_cells m s (a ++ b ++ last b VNil :: rest), Slice (sl_arr s) (List.length (a ++ b))).
Proof.
  intros Ho Hv Hc. pose proof (view_len m s Ho) as Hl. rewrite Hv, app_length in Hl. cbn [List.length] in Hl.
  unfold m_delete_in_arr. f_equal.
  - f_equal. rewrite Hc, Hv, <- app_assoc. cbn [app]. rewrite set_nth_mid. unfold move.
    replace (Nat.min _ _) with (List.length b) by lia. rewrite firstn_len_app, skipn_len_cons, firstn_len_app. f_equal. f_equal.
    rewrite skipn_app, skipn_all2 by lia. replace (_ - _) with (List.length b) by lia. cbn [app].
    clear. induction b as [|z b IH] using rev_ind; [reflexivity|]. rewrite last_last, app_length, <- app_assoc. cbn [app List.length].
    rewrite Nat.add_1_r. apply (skipn_len_app (VNil :: b) (z :: rest)).
  - rewrite app_length. f_equal. lia.
Qed.

Lemma delete_stepped m s k : slice_ok m s -> k < sl_len s ->
  stepped m s (m_delete_in_arr (m, s) k) (firstn k (view m s) ++ skipn (S k) (view m s)).
Proof.
  intros Ho Hk. destruct (cells_view m s Ho) as (rest & Er). pose proof (view_len m s Ho) as Hl.
  destruct (split_nth (view m s) k) as (a & y & b & Ev & <-); [lia|].
  rewrite (delete_cells m s a y b rest Ho Ev Er), Ev, firstn_len_app, skipn_len_cons.
  replace (a ++ b) with (firstn (List.length (a ++ b)) (a ++ b ++ last b VNil :: rest)) at 2
    by (rewrite app_assoc; apply firstn_len_app).
  apply stepped_write; [apply Ho|]. rewrite !app_length. lia.
Qed.

Lemma put_stepped m s k x : slice_ok m s -> k < sl_len s ->
  stepped m s (with_cells m s (set_nth k x (cells m s)), s) (firstn k (view m s) ++ x :: skipn (S k) (view m s)).
Proof.
  intros Ho Hk. destruct (cells_view m s Ho) as (rest & Er). pose proof (view_len m s Ho) as Hl.
  destruct (split_nth (view m s) k) as (a & y & b & Ev & <-); [lia|].
  rewrite Er, Ev, <- app_assoc, firstn_len_app, skipn_len_cons. cbn [app]. rewrite set_nth_mid.
  rewrite Ev, app_length in Hl. cbn [List.length] in Hl.
  replace (a ++ x :: b) with (firstn (sl_len s) (a ++ x :: b ++ rest)).
  - apply stepped_write_same; [apply Ho|]. rewrite app_length. cbn [List.length]. rewrite app_length. lia.
  - replace (sl_len s) with (List.length (a ++ x :: b)) by (rewrite app_length; cbn; lia).
    change (a ++ x :: b ++ rest) with (a ++ (x :: b) ++ rest). rewrite app_assoc. apply firstn_len_app.
Qed.

Lemma sort_stepped W less m s : slice_ok m s -> stepped m s (m_sort W less (m, s)) (go_sort W less (view m s)).
Proof.
  intros Ho. pose proof (view_len m s Ho) as Hl. pose proof (Permutation_length (go_sort_perm W less (view m s))) as Hp.
  cbn [m_sort]. replace (go_sort W less (view m s)) with
    (firstn (sl_len s) (go_sort W less (view m s) ++ skipn (sl_len s) (cells m s))) at 2.
  - apply stepped_write_same; [apply Ho|]. rewrite app_length. lia.
  - rewrite <- Hl, <- Hp. apply firstn_len_app.
Qed.

(** *** Positions *)
Lemma pos_read_index n p : pos_read n p = index n p.
Proof.
  unfold pos_read, index. destruct (Z.eqb_spec (Z.of_nat n) 0) as [H|H];
  destruct (Z.leb_spec 0 p), (Z.ltb_spec p (Z.of_nat n)), (Z.leb_spec (- Z.of_nat n) p), (Z.ltb_spec p 0),
    (Z.ltb_spec (p + Z.of_nat n) 0), (Z.leb_spec (Z.of_nat n) p); cbn; try lia; reflexivity.
Qed.
Lemma index_lt n p k : index n p = Some k -> k < n.
Proof.
  unfold index. destruct (Z.leb_spec 0 p), (Z.ltb_spec p (Z.of_nat n)), (Z.leb_spec (- Z.of_nat n) p), (Z.ltb_spec p 0); cbn;
    intros [= <-]; lia.
Qed.
Lemma before_index n p : pos_insert_before n p = index n p.
Proof.
  unfold pos_insert_before, index. destruct (Z.eqb_spec (Z.of_nat n) 0) as [H|H]; destruct (Z.eqb_spec p 0) as [H0|H0];
  destruct (Z.leb_spec 0 p), (Z.ltb_spec p (Z.of_nat n)), (Z.leb_spec (- Z.of_nat n) p), (Z.ltb_spec p 0),
    (Z.ltb_spec (p + Z.of_nat n) 0), (Z.leb_spec (Z.of_nat n) p); cbn; try lia; try reflexivity; subst; reflexivity.
Qed.
Lemma after_index n p : pos_insert_after n p = match index n p with Some k => Some (S k) | None => None end.
Proof.
  unfold pos_insert_after, index. destruct (Z.eqb_spec (Z.of_nat n) 0) as [H|H]; destruct (Z.eqb_spec p (-1)) as [H0|H0];
  destruct (Z.leb_spec 0 p), (Z.ltb_spec p (Z.of_nat n)), (Z.leb_spec (- Z.of_nat n) p), (Z.ltb_spec p 0),
    (Z.ltb_spec (p + Z.of_nat n) 0), (Z.leb_spec (Z.of_nat n) p); cbn; try lia; try reflexivity; f_equal; lia.
Qed.

(** *** Calls *)
Lemma exec_stepped g m s a : slice_ok m s -> stepped m s (a_exec g (m, s) a) (edited (view m s) a).
Proof.
  intros Ho. pose proof (view_len m s Ho) as Hl. destruct a as [x p|x p|x p|x|x|p|W0 less]; cbn [a_exec edited snd].
  - assert (Hgen : stepped m s (m_set_at_index g (m, s) x p)
      (if (p =? Z.of_nat (List.length (view m s)))%Z then view m s ++ [x]
       else match index (List.length (view m s)) p with
            | Some k => firstn k (view m s) ++ x :: skipn (S k) (view m s)
            | None => view m s end)).
    { unfold m_set_at_index. rewrite Hl, pos_read_index. destruct (_ =? _)%Z; [now apply append_stepped|].
      destruct (index (sl_len s) p) as [k|] eqn:Ek; [|now apply stepped_refl].
      apply put_stepped; [exact Ho|]. now apply index_lt in Ek. }
    destruct x; cbn [uninitialized is_nil not_exist orb]; auto using stepped_refl.
  - rewrite Hl, before_index. destruct (index (sl_len s) p) as [k|] eqn:Ek; [|now apply stepped_refl].
    apply insert_stepped; [exact Ho|]. apply index_lt in Ek. lia.
  - rewrite Hl, after_index. destruct (index (sl_len s) p) as [k|] eqn:Ek; [|now apply stepped_refl].
    pose proof (index_lt _ _ _ Ek) as Hk. destruct (Z.eqb_spec p (-1)) as [->|Hne].
    + assert (k = sl_len s - 1).
      { revert Ek. unfold index. destruct (Z.leb_spec 0 (-1)); [lia|]. destruct (Z.leb_spec (- Z.of_nat (sl_len s)) (-1)); [|cbn; discriminate].
        cbn [andb]. change (-1 <? 0)%Z with true. cbv iota. intros Ek. apply (f_equal (fun o => match o with Some z => z | None => 0 end)) in Ek. cbv beta iota in Ek. lia. }
      subst k. rewrite firstn_all2, skipn_all2 by lia. now apply append_stepped.
    + apply insert_stepped; [exact Ho|lia].
  - destruct (Nat.eqb_spec (sl_len s) 0) as [H0|H0].
    + destruct (view m s) eqn:Ev; [|cbn in Hl; lia]. pose proof (append_stepped g m s x Ho) as Hp. now rewrite Ev in Hp.
    + apply (insert_stepped g m s 0 x Ho). lia.
  - now apply append_stepped.
  - rewrite Hl, pos_read_index. destruct (index (sl_len s) p) as [k|] eqn:Ek; [|now apply stepped_refl].
    apply delete_stepped; [exact Ho|]. now apply index_lt in Ek.
  - now apply sort_stepped.
Qed.

Lemma execs_stepped g : forall l m s, slice_ok m s -> stepped m s (a_execs g (m, s) l) (fold_left edited l (view m s)).
Proof.
  induction l as [|a l IH]; intros m s Ho; cbn [a_execs fold_left]; [now apply stepped_refl|].
  pose proof (exec_stepped g m s a Ho) as H1. destruct (a_exec g (m, s) a) as [m1 s1].
  refine (stepped_trans _ _ _ _ _ _ H1 _). destruct H1 as [Ho1 Hv1 _ _]. cbn [fst snd] in *. rewrite <- Hv1. now apply IH.
Qed.

Lemma exec_all g m s a : slice_ok m s ->
  let ms' := a_exec g (m, s) a in slice_ok (fst ms') (snd ms') /\ view (fst ms') (snd ms') = edited (view m s) a.
Proof. intros Ho. destruct (exec_stepped g m s a Ho). auto. Qed.

(** The same calls on the tree. *)
Lemma edited_tree E W l a :
  VArr (edited l a) =
  fst (match a with
       | ASet x p => set_at E (VArr l) (arg_v x) (PInt p) []
       | ABefore x p => insert_before E W (VArr l) (arg_v x) (PInt p) []
       | AAfter x p => insert_after E W (VArr l) (arg_v x) (PInt p) []
       | ABegin x => append_beginning E W (VArr l) (arg_v x) []
       | AEnd x => append_end E W (VArr l) (arg_v x) []
       | ADelete p => let '(v, _) := delete_at E W false (VArr l) (PInt p) [] in (v, Ok VNull)
       | ASort W' less => (match sort_array W' (VArr l) (Some less) with Ok v => v | _ => VNil end, Ok VNull)
       end).
Proof.
  destruct a as [x p|x p|x p|x|x|p|W0 less]; cbn [edited].
  - unfold set_at, arg_v. cbn [snd fst psum]. destruct x; cbn -[skipn firstn];
    try reflexivity; unfold set_at_index; rewrite pos_read_index;
    destruct (_ =? _)%Z; try reflexivity; destruct (index (List.length l) p) as [k|] eqn:Ek; try reflexivity;
    cbn [fst]; f_equal; apply index_lt in Ek; destruct (split_nth l k Ek) as (l1 & y & l2 & -> & <-);
    now rewrite firstn_len_app, skipn_len_cons, set_nth_mid.
  - unfold insert_before, arg_v. cbn. rewrite before_index. now destruct (index (List.length l) p).
  - unfold insert_after, arg_v. cbn. rewrite after_index. now destruct (index (List.length l) p).
  - reflexivity.
  - reflexivity.
  - unfold delete_at. cbn. rewrite pos_read_index. now destruct (index (List.length l) p).
  - reflexivity.
Qed.

(** *** The loop *)
Section Loop.
Context {S : Type} (g : nat -> nat) (cb : acallback S).

Lemma range_replay arr : forall todo i st m s, slice_ok m s ->
  forall t ms', range_cells g cb arr todo i st (m, s) = (t, ms') ->
  replay cb st (view m s) t (view (fst ms') (snd ms')) /\
  (forall n w j x, nth_error t n = Some (w, j, x) -> j = Z.of_nat (i + n)) /\
  List.length t <= todo /\ (never_stops cb -> List.length t = todo) /\ slice_ok (fst ms') (snd ms').
Proof.
  induction todo as [|todo IH]; intros i st m s Ho t ms' Er; cbn [range_cells] in Er.
  - injection Er as <- <-. split; [constructor|]. split; [intros [|n]; discriminate|]. auto.
  - cbn [fst snd] in Er. destruct (cb st (view m s) (Z.of_nat i) _) as [[st' calls] go] eqn:Ecb.
    pose proof (execs_stepped g calls m s Ho) as [Ho1 Hv1 _ _]. destruct (a_execs g (m, s) calls) as [m1 s1]. cbn [fst snd] in *.
    destruct go.
    + destruct (range_cells g cb arr todo _ st' (m1, s1)) as [t1 r1] eqn:E1. injection Er as <- <-.
      destruct (IH _ _ _ _ Ho1 _ _ E1) as (R & Hp & Hle & Hall & Ho').
      split; [|split; [|split; [|split]]]; auto.
      * apply (RP_go _ _ _ _ _ st' calls); [exact Ecb|]. now rewrite <- Hv1.
      * intros [|n] w j x; cbn [nth_error]; [intros [= _ <- _]; f_equal; lia|]. intros Hn. apply Hp in Hn. rewrite Hn. f_equal. lia.
      * cbn [List.length]. lia.
      * intros Hn. cbn [List.length]. now rewrite Hall.
    + injection Er as <- <-. cbn [fst snd]. split; [|split; [|split; [|split]]]; auto.
      * rewrite Hv1. now apply (RP_stop _ _ _ _ _ st' calls).
      * intros [|[|n]] w j x; cbn [nth_error]; [intros [= _ <- _]; f_equal; lia| |]; discriminate.
      * cbn [List.length]. lia.
      * intros Hn. specialize (Hn st (view m s) (Z.of_nat i) (nth i (nth arr m []) VNil)). rewrite Ecb in Hn. discriminate.
Qed.

(** The array that is read is not that of the slice. *)
Lemma range_elsewhere arr l : forall todo i st m s, slice_ok m s -> arr < List.length m -> arr <> sl_arr s ->
  nth arr m [] = l -> i + todo <= List.length l ->
  forall t ms', range_cells g cb arr todo i st (m, s) = (t, ms') -> delivered t = firstn (List.length t) (skipn i l).
Proof.
  induction todo as [|todo IH]; intros i st m s Ho Ha Hne Hl Hi t ms' Er; cbn [range_cells] in Er.
  - injection Er as <- <-. reflexivity.
  - cbn [fst snd] in Er. destruct (cb st (view m s) (Z.of_nat i) _) as [[st' calls] go] eqn:Ecb.
    pose proof (execs_stepped g calls m s Ho) as [Ho1 _ Hg Hb]. destruct (a_execs g (m, s) calls) as [m1 s1]. cbn [fst snd] in *.
    destruct (Hb arr Ha Hne) as [Hsame Hne1].
    assert (Hx : skipn i l = nth i (nth arr m []) VNil :: skipn (Datatypes.S i) l).
    { destruct (split_nth l i) as (a & x & b & El & <-); [lia|]. rewrite Hl, El, nth_middle.
      rewrite skipn_len_app. f_equal. symmetry. apply skipn_len_cons. }
    destruct go.
    + destruct (range_cells g cb arr todo _ st' (m1, s1)) as [t1 r1] eqn:E1. injection Er as <- <-.
      unfold delivered. cbn [map snd List.length]. rewrite Hx. cbn [firstn]. f_equal.
      apply (IH (Datatypes.S i) st' m1 s1 Ho1 ltac:(lia) Hne1 ltac:(congruence) ltac:(lia) _ _ E1).
    + injection Er as <- <-. unfold delivered. cbn [map snd List.length]. rewrite Hx. reflexivity.
Qed.

(** Only additions at the end: the cells that are read are not written. *)
Lemma append_cells m s y n : slice_ok m s -> n <= sl_len s ->
  let ms' := sl_append g (m, s) y in
  (sl_arr (snd ms') = sl_arr s -> n <= sl_len (snd ms')) /\
  firstn n (nth (sl_arr s) (fst ms') []) = firstn n (nth (sl_arr s) m []).
Proof.
  intros [Ha Hc] Hn. unfold sl_append. destruct (Nat.ltb_spec (sl_len s) (List.length (cells m s))) as [Hlt|Hge]; cbn [fst snd sl_len sl_arr].
  - split; [lia|]. fold (cells (with_cells m s (set_nth (sl_len s) y (cells m s))) s). rewrite cells_with by exact Ha. fold (cells m s).
    clear -Hn. revert n Hn. generalize (sl_len s) as k. induction (cells m s) as [|z l IH]; intros [|k] [|n] Hn; cbn; auto; try lia.
    f_equal. apply IH. lia.
  - split; [lia|]. now rewrite app_nth1 by exact Ha.
Qed.

Lemma appends_cells arr n : forall l m s, Forall (fun a => exists y, a = AEnd y) l -> slice_ok m s -> arr < List.length m ->
  (arr = sl_arr s -> n <= sl_len s) ->
  let ms' := a_execs g (m, s) l in
  (arr = sl_arr (snd ms') -> n <= sl_len (snd ms')) /\ firstn n (nth arr (fst ms') []) = firstn n (nth arr m []).
Proof.
  induction l as [|a l IH]; intros m s Hf Ho Ha Hn; cbn [a_execs fold_left]; [auto|].
  inversion Hf as [|? ? (y & ->) Hf']; subst. cbn [a_exec].
  pose proof (append_stepped g m s y Ho) as [Ho1 _ Hg1 Hb1]. pose proof (append_cells m s y n Ho) as Hc.
  destruct (sl_append g (m, s) y) as [m1 s1]. cbn [fst snd] in *.
  assert (Hkeep : (arr = sl_arr s1 -> n <= sl_len s1) /\ firstn n (nth arr m1 []) = firstn n (nth arr m [])).
  { destruct (Nat.eq_dec arr (sl_arr s)) as [->|Hne].
    - destruct (Hc (Hn eq_refl)) as [H1 H2]. split; [intros He; apply H1; congruence|exact H2].
    - destruct (Hb1 arr Ha Hne) as [-> Hne1]. split; [congruence|reflexivity]. }
  destruct Hkeep as [Hk1 Hk2]. destruct (IH m1 s1 Hf' Ho1 ltac:(lia) Hk1) as [H1 H2]. split; [exact H1|]. now rewrite <- Hk2.
Qed.

Lemma range_appends arr n : only_appends cb -> forall todo i st m s, slice_ok m s -> arr < List.length m ->
  (arr = sl_arr s -> n <= sl_len s) -> n <= List.length (nth arr m []) -> i + todo <= n ->
  forall t ms', range_cells g cb arr todo i st (m, s) = (t, ms') ->
  delivered t = firstn (List.length t) (skipn i (firstn n (nth arr m []))).
Proof.
  intros Honly. induction todo as [|todo IH]; intros i st m s Ho Ha Hn Hlen Hi t ms' Er; cbn [range_cells] in Er.
  - injection Er as <- <-. reflexivity.
  - cbn [fst snd] in Er. pose proof (Honly st (view m s) (Z.of_nat i) (nth i (nth arr m []) VNil)) as Hf.
    destruct (cb st (view m s) (Z.of_nat i) _) as [[st' calls] go] eqn:Ecb. cbn [fst snd] in Hf.
    pose proof (execs_stepped g calls m s Ho) as [Ho1 _ Hg Hb].
    destruct (appends_cells arr n calls m s Hf Ho Ha Hn) as [Hn1 Hc1]. destruct (a_execs g (m, s) calls) as [m1 s1]. cbn [fst snd] in *.
    assert (Hl1 : n <= List.length (nth arr m1 [])).
    { apply (f_equal (@List.length V)) in Hc1. rewrite !firstn_length in Hc1. lia. }
    assert (Hx : skipn i (firstn n (nth arr m [])) = nth i (nth arr m []) VNil :: skipn (Datatypes.S i) (firstn n (nth arr m []))).
    { clear -Hlen Hi. destruct (split_nth (firstn n (nth arr m [])) i) as (a & x & b & El & Hal); [rewrite firstn_length; lia|].
      assert (Hnth : nth i (nth arr m []) VNil = x).
      { rewrite <- (firstn_skipn n (nth arr m [])), El, app_nth1 by (rewrite app_length; cbn; lia). rewrite <- Hal. apply nth_middle. }
      rewrite Hnth, El, <- Hal, skipn_len_app. f_equal. symmetry. apply skipn_len_cons. }
    destruct go.
    + destruct (range_cells g cb arr todo _ st' (m1, s1)) as [t1 r1] eqn:E1. injection Er as <- <-.
      unfold delivered. cbn [map snd List.length]. rewrite Hx. cbn [firstn]. f_equal. rewrite <- Hc1.
      apply (IH (Datatypes.S i) st' m1 s1 Ho1 ltac:(lia) Hn1 Hl1 ltac:(lia) _ _ E1).
    + injection Er as <- <-. unfold delivered. cbn [map snd List.length]. rewrite Hx. reflexivity.
Qed.

(** Calls that need no room stay in the array. *)
Lemma no_room_arr : forall l m s, slice_ok m s -> no_room (view m s) l -> sl_arr (snd (a_execs g (m, s) l)) = sl_arr s.
Proof.
  induction l as [|a l IH]; intros m s Ho Hr; cbn [a_execs fold_left]; [reflexivity|].
  pose proof (exec_stepped g m s a Ho) as [Ho1 Hv1 _ _]. pose proof (view_len m s Ho) as Hl.
  assert (Ha : sl_arr (snd (a_exec g (m, s) a)) = sl_arr s /\ no_room (edited (view m s) a) l).
  { inversion Hr as [|? p ? Hr'|? W less ? Hr'|? x p ? Hp Hr']; subst; split; auto.
    - cbn [a_exec snd]. destruct (pos_read (sl_len s) p); reflexivity.
    - cbn [a_exec]. destruct (uninitialized x); [reflexivity|]. cbn [m_set_at_index]. rewrite Hl in Hp.
      destruct (Z.eqb_spec p (Z.of_nat (sl_len s))); [contradiction|]. destruct (pos_read (sl_len s) p); reflexivity. }
  destruct Ha as [Ha Hr']. rewrite <- Hv1 in Hr'. destruct (a_exec g (m, s) a) as [m1 s1]. cbn [fst snd] in *.
  change (fold_left (a_exec g) l (m1, s1)) with (a_execs g (m1, s1) l). rewrite (IH m1 s1 Ho1 Hr'). exact Ha.
Qed.

Lemma range_no_room : needs_no_room cb -> forall todo i st m s, slice_ok m s ->
  forall t ms', range_cells g cb (sl_arr s) todo i st (m, s) = (t, ms') ->
  Forall (fun r => let '(w, j, x) := r in (0 <= j)%Z /\ ((j < Z.of_nat (List.length w))%Z -> nth_error w (Z.to_nat j) = Some x)) t.
Proof.
  intros Hneed. induction todo as [|todo IH]; intros i st m s Ho t ms' Er; cbn [range_cells] in Er.
  - injection Er as <- <-. constructor.
  - cbn [fst snd] in Er. pose proof (Hneed st (view m s) (Z.of_nat i) (nth i (nth (sl_arr s) m []) VNil)) as Hf.
    destruct (cb st (view m s) (Z.of_nat i) _) as [[st' calls] go] eqn:Ecb. cbn [fst snd] in Hf.
    pose proof (execs_stepped g calls m s Ho) as [Ho1 _ _ _]. pose proof (no_room_arr calls m s Ho Hf) as Ha.
    destruct (a_execs g (m, s) calls) as [m1 s1]. cbn [fst snd] in *.
    assert (Hhere : (0 <= Z.of_nat i)%Z /\ ((Z.of_nat i < Z.of_nat (List.length (view m s)))%Z ->
              nth_error (view m s) (Z.to_nat (Z.of_nat i)) = Some (nth i (nth (sl_arr s) m []) VNil))).
    { split; [lia|]. intros Hi. rewrite Nat2Z.id. fold (cells m s). destruct (cells_view m s Ho) as (rest & ->).
      rewrite app_nth1 by lia. apply nth_error_nth'. lia. }
    destruct go.
    + rewrite <- Ha in Er. destruct (range_cells g cb (sl_arr s1) todo _ st' (m1, s1)) as [t1 r1] eqn:E1. injection Er as <- <-.
      constructor; [rewrite Ha; exact Hhere|]. exact (IH _ _ _ _ Ho1 _ _ E1).
    + injection Er as <- <-. constructor; [exact Hhere|constructor].
Qed.
End Loop.

(** *** The loop that deletes *)
Lemma deleting_no_room p : needs_no_room (deleting p).
Proof. intros st w i x. unfold deleting. cbn [fst snd]. destruct (p x); repeat constructor. Qed.

Lemma deleting_loop g p arr : forall todo i m s, slice_ok m s -> arr = sl_arr s -> List.length (view m s) <= i + todo ->
  forall t ms', range_cells g (deleting p) arr todo i tt (m, s) = (t, ms') ->
  view (fst ms') (snd ms') = firstn i (view m s) ++ every_other p (skipn i (view m s)).
Proof.
  induction todo as [|todo IH]; intros i m s Ho -> Hi t ms' Er; cbn [range_cells] in Er.
  - injection Er as <- <-. cbn [fst snd]. rewrite skipn_all2, firstn_all2 by lia. cbn. now rewrite app_nil_r.
  - cbn [fst snd deleting] in Er. set (x := nth i (nth (sl_arr s) m []) VNil) in *.
    set (calls := if p x then [ADelete (Z.of_nat i)] else []) in *.
    pose proof (execs_stepped g calls m s Ho) as [Ho1 Hv1 _ _].
    assert (Ha : sl_arr (snd (a_execs g (m, s) calls)) = sl_arr s).
    { apply no_room_arr; [exact Ho|]. unfold calls. destruct (p x); repeat constructor. }
    destruct (a_execs g (m, s) calls) as [m1 s1]. cbn [fst snd] in *.
    destruct (range_cells g (deleting p) (sl_arr s) todo _ tt (m1, s1)) as [t1 r1] eqn:E1. injection Er as <- <-.
    assert (Hlen1 : List.length (view m1 s1) <= S i + todo).
    { rewrite Hv1. unfold calls. destruct (p x); cbn [fold_left edited]; [|lia].
      destruct (index _ _) as [k|]; [|lia]. rewrite app_length, firstn_length, skipn_length. lia. }
    rewrite (IH _ _ _ Ho1 (eq_sym Ha) Hlen1 _ _ E1). clear IH E1 Hlen1.
    destruct (le_lt_dec (List.length (view m s)) i) as [Hge|Hlt].
    + assert (view m1 s1 = view m s) as ->.
      { rewrite Hv1. unfold calls. destruct (p x); cbn [fold_left edited]; [|reflexivity].
        destruct (index _ _) as [k|] eqn:Ek; [|reflexivity]. exfalso. revert Ek. unfold index.
        destruct (Z.leb_spec 0 (Z.of_nat i)), (Z.ltb_spec (Z.of_nat i) (Z.of_nat (List.length (view m s))));
          [lia| |lia|lia]. destruct (Z.ltb_spec (Z.of_nat i) 0); [lia|].
        rewrite !andb_false_r. discriminate. }
      rewrite !skipn_all2, !firstn_all2 by lia. reflexivity.
    + destruct (split_nth (view m s) i Hlt) as (a & y & b & Ev & Hla).
      assert (Hxy : x = y).
      { unfold x. fold (cells m s). destruct (cells_view m s Ho) as (rest & ->). rewrite app_nth1, Ev, <- Hla by lia. apply nth_middle. }
      rewrite Hv1, Ev, <- Hla, firstn_len_app, skipn_len_app. cbn [every_other]. unfold calls. rewrite Hxy. destruct (p y); cbn [fold_left].
      * rewrite <- Hla. assert (edited (a ++ y :: b) (ADelete (Z.of_nat (List.length a))) = a ++ b) as ->.
        { cbn [edited]. unfold index. rewrite app_length. cbn [List.length].
          destruct (Z.leb_spec 0 (Z.of_nat (List.length a))), (Z.ltb_spec (Z.of_nat (List.length a)) (Z.of_nat (List.length a + S (List.length b)))); try lia.
          cbn [andb]. rewrite Nat2Z.id, firstn_len_app, skipn_len_cons. reflexivity. }
        destruct b as [|z b].
        -- rewrite app_nil_r, skipn_all2, firstn_all2 by lia. cbn. now rewrite app_nil_r.
        -- rewrite firstn_len_cons, skipn_len_cons, <- app_assoc. reflexivity.
      * rewrite firstn_len_cons, skipn_len_cons, <- app_assoc. reflexivity.
Qed.

(** When it leaves what was meant. *)
Lemma every_other_right p : forall n l, List.length l <= n ->
  (every_other p l = filter (fun x => negb (p x)) l <-> ~ neighbours p l).
Proof.
  assert (Hall : forall l, Forall (fun x => p x = false) (filter (fun x => negb (p x)) l)).
  { intros l. apply Forall_forall. intros x Hx. apply filter_In in Hx. now destruct (p x). }
  induction n as [|n IH]; intros l Hn.
  - destruct l; [|cbn in Hn; lia]. split; [|reflexivity]. intros _ (a & x & y & b & E0 & _). destruct a; discriminate.
  - destruct l as [|x r]; [split; [|reflexivity]; intros _ (a & x & y & b & E0 & _); destruct a; discriminate|].
    cbn [every_other filter]. destruct (p x) eqn:Px; cbn [negb].
    + destruct r as [|y r'].
      * split; [|reflexivity]. intros _ (a & x' & y' & b & E0 & _). destruct a as [|? [|? ?]]; discriminate.
      * cbn [filter]. destruct (p y) eqn:Py; cbn [negb].
        -- split; [|intros Hno; exfalso; apply Hno; exists [], x, y, r'; auto].
           intros Heq. exfalso. pose proof (Hall r') as Hf. rewrite <- Heq in Hf. inversion Hf; congruence.
        -- cbn in Hn. specialize (IH r' ltac:(lia)). split.
           ++ intros [= Heq]. apply IH in Heq. intros (a & x' & y' & b & E0 & Hx' & Hy').
              destruct a as [|a0 [|a1 a]]; cbn [app] in E0; inversion E0; subst; try congruence.
              apply Heq. exists a, x', y', b. auto.
           ++ intros Hno. f_equal. apply IH. intros (a & x' & y' & b & -> & Hx' & Hy'). apply Hno. exists (x :: y :: a), x', y', b. auto.
    + cbn in Hn. specialize (IH r ltac:(lia)). split.
      * intros [= Heq]. apply IH in Heq. intros (a & x' & y' & b & E0 & Hx' & Hy').
        destruct a as [|a0 a]; cbn [app] in E0; inversion E0; subst; [congruence|]. apply Heq. exists a, x', y', b. auto.
      * intros Hno. f_equal. apply IH. intros (a & x' & y' & b & -> & Hx' & Hy'). apply Hno. exists (x :: a), x', y', b. auto.
Qed.

(** *** Callbacks that sort *)
Lemma sorts_no_room l : Forall (fun a => exists W less, a = ASort W less) l -> forall w, no_room w l.
Proof. induction 1 as [|a l (W & less & ->) _ IH]; intros w; constructor; auto. Qed.
Lemma sorts_perm l : Forall (fun a => exists W less, a = ASort W less) l -> forall w, Permutation (fold_left edited l w) w.
Proof. induction 1 as [|a l (W & less & ->) _ IH]; intros w; cbn [fold_left edited]; [reflexivity|]. rewrite IH. apply go_sort_perm. Qed.

Lemma replay_sorts {S} (cb : acallback S) : only_sorts cb -> forall st l t l', replay cb st l t l' ->
  Permutation l' l /\ Forall (fun r => Permutation (fst (fst r)) l) t.
Proof.
  intros Hn st l t l' H. induction H as [st l|st l i x st' calls Hc|st l i x st' calls t l' Hc Hr [IH1 IH2]].
  - auto.
  - specialize (Hn st l i x). rewrite Hc in Hn. cbn [fst snd] in Hn. split; [now apply sorts_perm|]. constructor; [reflexivity|constructor].
  - specialize (Hn st l i x). rewrite Hc in Hn. cbn [fst snd] in Hn. pose proof (sorts_perm _ Hn l) as Hp.
    split; [now rewrite IH1|]. constructor; [reflexivity|]. rewrite Forall_forall in *. intros r Hr'. rewrite (IH2 _ Hr'). exact Hp.
Qed.

(** The callback that sorts once: position by position, before, at and behind it. *)
Lemma sorting_behind g W less k arr : forall todo i m s, slice_ok m s -> arr = sl_arr s -> k < i -> i + todo <= sl_len s ->
  forall t ms', range_cells g (sorting_at k W less) arr todo i tt (m, s) = (t, ms') ->
  delivered t = firstn todo (skipn i (view m s)) /\ ms' = (m, s).
Proof.
  induction todo as [|todo IH]; intros i m s Ho -> Hk Hi t ms' Er; cbn [range_cells] in Er.
  - injection Er as <- <-. auto.
  - cbn [fst snd sorting_at] in Er. replace (Z.of_nat i =? Z.of_nat k)%Z with false in Er by (symmetry; apply Z.eqb_neq; lia).
    cbn [a_execs fold_left] in Er. destruct (range_cells _ _ _ todo _ tt (m, s)) as [t1 r1] eqn:E1. injection Er as <- <-.
    destruct (IH _ _ _ Ho eq_refl (Nat.lt_trans _ _ _ Hk (Nat.lt_succ_diag_r i)) ltac:(lia) _ _ E1) as [H1 H2]. split; [|exact H2].
    pose proof (view_len m s Ho) as Hl. destruct (split_nth (view m s) i) as (a & x & b & Ev & <-); [lia|].
    destruct (cells_view m s Ho) as (rest & Er). fold (cells m s). rewrite Er, Ev in *. rewrite <- app_assoc. cbn [app]. rewrite nth_middle.
    rewrite skipn_len_app in *. rewrite skipn_len_cons in H1. unfold delivered in *. cbn [map snd firstn]. now rewrite H1.
Qed.
Lemma sorting_loop g W less k arr : forall todo i m s, slice_ok m s -> arr = sl_arr s -> i <= k -> i + todo = sl_len s -> k < sl_len s ->
  forall t ms', range_cells g (sorting_at k W less) arr todo i tt (m, s) = (t, ms') ->
  delivered t = skipn i (firstn (S k) (view m s)) ++ skipn (S k) (go_sort W less (view m s)) /\
  view (fst ms') (snd ms') = go_sort W less (view m s).
Proof.
  induction todo as [|todo IH]; intros i m s Ho -> Hk Hi Hks t ms' Er; cbn [range_cells] in Er; [lia|].
  pose proof (view_len m s Ho) as Hl. destruct (split_nth (view m s) i) as (a & x & b & Ev & Ha); [lia|].
  destruct (cells_view m s Ho) as (rest & Ec).
  assert (Hx : nth i (nth (sl_arr s) m []) VNil = x).
  { fold (cells m s). rewrite Ec, Ev, <- app_assoc, <- Ha. cbn [app]. apply nth_middle. }
  cbn [fst snd sorting_at] in Er. rewrite Hx in Er. destruct (Z.eqb_spec (Z.of_nat i) (Z.of_nat k)) as [Heq|Hne].
  - assert (i = k) by lia. subst k. cbn [a_execs fold_left] in Er. cbn [a_exec] in Er.
    pose proof (sort_stepped W less m s Ho) as [Ho1 Hv1 _ _]. cbn [m_sort] in *.
    set (m1 := with_cells m s _) in *. cbn [fst snd] in *.
    destruct (range_cells _ _ _ todo _ tt (m1, s)) as [t1 r1] eqn:E1. injection Er as <- <-.
    destruct (sorting_behind g W less i (sl_arr s) todo (S i) m1 s Ho1 eq_refl (Nat.lt_succ_diag_r i) ltac:(lia) _ _ E1) as [H1 ->].
    split; [|exact Hv1]. unfold delivered in *. cbn [map snd]. rewrite H1, Hv1, Ev, <- Ha, firstn_len_cons, skipn_len_app. cbn [app]. f_equal.
    apply firstn_all2. rewrite skipn_length, (Permutation_length (go_sort_perm _ _ _)), <- Ev. lia.
  - cbn [a_execs fold_left] in Er. destruct (range_cells _ _ _ todo _ tt (m, s)) as [t1 r1] eqn:E1. injection Er as <- <-.
    destruct (IH (S i) m s Ho eq_refl ltac:(lia) ltac:(lia) Hks _ _ E1) as [H1 H2]. split; [|exact H2].
    unfold delivered in *. cbn [map snd]. rewrite H1. rewrite app_comm_cons. f_equal. rewrite Ev, <- Ha.
    replace (S k) with (List.length a + S (k - List.length a)) by lia. rewrite firstn_app_2, skipn_len_app. cbn [firstn].
    rewrite skipn_len_cons. reflexivity.
Qed.
