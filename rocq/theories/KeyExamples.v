(** Documents for the claims about key paths (C44, C48, C49). *)
From Verif Require Import Base Float64 Value Opt Marshal ListLemmas SpecOut IndentProof KeyMem SpecKeys KeyProof ParentProof ExampleWorld MarshalExamples.

Definition one (k : string) (v : V) : V := VObj 1 [(bs k, (1, v))] None.
Definition two (k : string) (v : V) (k' : string) (v' : V) : V := VObj 2 [(bs k, (1, v)); (bs k', (2, v'))] None.
Definition by_name : less_func := fun _ k1 k2 _ _ => bltb k1 k2.
Definition opt_by_name : opt := with_less opt0 by_name.
(** What the runtime does for these lengths: 1, 2, 4, 8. *)
Definition go_grow (n : nat) : nat := match n with 1 => 2 | 2 => 4 | 4 => 8 | _ => S (n + n) end%nat.
Lemma go_grows n : (n < go_grow n)%nat.
Proof. unfold go_grow. destruct n as [|[|[|[|[|n]]]]]; lia. Qed.

Definition keys_of (l : list string) : list key := map (fun s => string_key (bs s)) l.

(** {"a":{"b":{"c":{"d":{"a":null,"b":null},"e":{"a":null,"b":null}}}}} *)
Definition ex_deep : V := one "a" (one "b" (one "c" (two "d" ex_pair "e" ex_pair))).
Lemma ex_deep_told : forall E, exists st,
  s_marshal_opt go_grow E world1 opt_by_name ex_deep
    = Ok (st, bs "{""a"":{""b"":{""c"":{""d"":{""a"":null,""b"":null},""e"":{""a"":null,""b"":null}}}}}") /\
  map snd (st_told st) = [keys_of ["a"; "b"; "c"]; keys_of ["a"; "b"; "c"; "d"]; keys_of ["a"; "b"; "c"; "e"]]%string /\
  map (fun e => shows (st_mem st) (fst e)) (st_told st)
    = [keys_of ["a"; "b"; "c"]; keys_of ["a"; "b"; "c"; "e"]; keys_of ["a"; "b"; "c"; "e"]]%string.
Proof. intros E. eexists. split; [vm_compute; reflexivity|]. split; vm_compute; reflexivity. Qed.

(** A path that is kept shows in the end a path of no object at all. *)
Definition ex_mixed : V :=
  one "a" (one "b" (one "c" (one "d" (one "e" (two "f" (one "g" (one "h" ex_pair)) "z" VNull))))).
Definition mixed_path : list key := keys_of ["a"; "b"; "c"; "d"; "e"; "z"; "g"; "h"]%string.
Lemma ex_mixed_told : forall E, exists st b,
  s_marshal_opt go_grow E world1 opt_by_name ex_mixed = Ok (st, b) /\
  nth_error (map snd (st_told st)) 1 = Some (keys_of ["a"; "b"; "c"; "d"; "e"; "f"; "g"; "h"]%string) /\
  nth_error (map (fun e => shows (st_mem st) (fst e)) (st_told st)) 1 = Some mixed_path.
Proof. intros E. eexists. eexists. split; [vm_compute; reflexivity|]. split; vm_compute; reflexivity. Qed.

Lemma step_key_name s k : step_key s = string_key (bs k) -> bs k <> [] -> s = SKey (bs k).
Proof.
  destruct s as [x|n]; cbn [step_key]; intros H Hk; [injection H as ->; reflexivity|].
  unfold int_key, string_key in H. injection H as H _. congruence.
Qed.

Lemma at_one k v p s w : bs k <> [] -> at_path (one k v) (s :: p) w -> step_key s = string_key (bs k) -> at_path v p w.
Proof.
  intros Hk H Hs. apply step_key_name in Hs; [|exact Hk]. subst s. inversion H as [|? ? ? ? ? ? ? ? Hin Hp|]; subst.
  destruct Hin as [Hin|[]]. injection Hin as <- <-. exact Hp.
Qed.

Lemma mixed_nowhere : ~ told_right ex_mixed mixed_path.
Proof.
  intros (p & i & kvs & lo & Hp & _ & Hk). unfold ex_mixed, mixed_path, keys_of in *. cbn [map] in Hk.
  do 5 (destruct p as [|? p]; [discriminate|]; cbn [map] in Hk; let Hs := fresh in injection Hk as Hs Hk; apply at_one in Hp; [|discriminate|now symmetry]).
  destruct p as [|s6 p]; [discriminate|]. cbn [map] in Hk. injection Hk as Hs Hk. symmetry in Hs. apply (step_key_name _ "z") in Hs; [|discriminate].
  subst s6. inversion Hp as [|? ? ? ? ? ? ? ? Hin Hp'|]; subst. destruct Hin as [Hin|[Hin|[]]]; [discriminate|].
  injection Hin as <- <-. inversion Hp'.
Qed.

(** C49: the parent. *)
Definition ex_child : V := one "o" ex_pair.
Definition backwards_below_pair : less_func := fun pi k1 k2 _ _ =>
  match pi with
  | Some (PInfo (VObj _ [_; _] _) _) => bltb k2 k1
  | _ => bltb k1 k2
  end.

Lemma at_pair p w : at_path ex_pair p w -> p = [] /\ w = ex_pair \/ exists s, p = [s] /\ w = VNull.
Proof.
  intros H. inversion H as [|? ? ? ? ? ? ? ? Hin Hp|]; subst; [auto|]. right.
  destruct Hin as [Hin|[Hin|[]]]; injection Hin as <- <- <-; inversion Hp; subst; eauto.
Qed.
Lemma at_child p w : at_path ex_child p w -> p = [] /\ w = ex_child \/ exists r, p = SKey (bs "o") :: r /\ at_path ex_pair r w.
Proof.
  intros H. inversion H as [|? ? ? ? ? ? ? ? Hin Hp|]; subst; [auto|]. right.
  destruct Hin as [Hin|[]]; injection Hin as <- <- <-. eauto.
Qed.

Lemma parent_refuted : exists v f f',
  (forall pi k1 k2 v1 v2, call_with true_parent v pi k1 k2 v1 v2 -> f pi k1 k2 v1 v2 = f' pi k1 k2 v1 v2) /\
  forall E, marshal_opt E world1 (with_less opt0 f) v <> marshal_opt E world1 (with_less opt0 f') v.
Proof.
  exists ex_child, by_name, backwards_below_pair. split.
  - intros pi k1 k2 v1 v2 (p & i & kvs & lo & id1 & id2 & Hp & Hi & Hpar & _ & _).
    destruct pi as [q|]; [|reflexivity]. specialize (Hpar q eq_refl). destruct Hpar as (q0 & s & -> & Hq).
    destruct q as [pa pth]. cbn [pi_parent] in Hq. apply at_child in Hq. destruct Hq as [[-> ->]|(r & -> & Hr)]; [reflexivity|].
    exfalso. cbn [app] in Hp. apply at_child in Hp. destruct Hp as [[? _]|(r' & Hr' & Hp)]; [discriminate|]. injection Hr' as <-.
    apply at_pair in Hp. destruct Hp as [[Hnil _]|(s' & Hs & Hw)]; [destruct r; discriminate|discriminate].
  - intros E. vm_compute. discriminate.
Qed.

Lemma ex_parent_given : forall E,
  call_with given_parent ex_child (Some (PInfo ex_pair [string_key (bs "o")])) (bs "a") (bs "b") VNull VNull /\
  marshal_opt E world1 (with_less opt0 backwards_below_pair) ex_child = Ok (bs "{""o"":{""b"":null,""a"":null}}").
Proof.
  intros E. split; [|vm_compute; reflexivity].
  exists [SKey (bs "o")], 2, [(bs "a", (1, VNull)); (bs "b", (2, VNull))], None, 1, 2.
  split; [eapply AP_key; [left; reflexivity|constructor]|]. split; [eexists; split; reflexivity|].
  split; [|split; [now left|now right; left]].
  intros q Hq. injection Hq as <-. left. exists [], (bs "o"). split; reflexivity.
Qed.

(** *** Statements *)

Lemma memory_same g E W o v : (forall n, (n < g n)%nat) -> no_store (s_marshal_opt g E W o v) = marshal_opt E W o v.
Proof.
  intros Hg. pose proof (key_paths g E W o v Hg) as H. unfold no_store.
  destruct (s_marshal_opt g E W o v) as [[st b]| | |]; cbn [rbind]; [destruct H as [H _]|..]; now rewrite H.
Qed.
Lemma told_paths g E W o v st b : (forall n, (n < g n)%nat) -> s_marshal_opt g E W o v = Ok (st, b) ->
  Forall (fun e => told_right v (snd e)) (st_told st).
Proof.
  intros Hg Hs. pose proof (key_paths g E W o v Hg) as H. rewrite Hs in H. destruct H as [_ H].
  eapply Forall_impl; [|exact H]. intros e [He _]. exact He.
Qed.
Lemma kept_paths g E W o v st b s ks : (forall n, (n < g n)%nat) -> s_marshal_opt g E W o v = Ok (st, b) ->
  In (s, ks) (st_told st) -> List.length (shows (st_mem st) s) = List.length ks /\
  forall n, fresh_length g n -> (n <= List.length ks)%nat -> firstn n (shows (st_mem st) s) = firstn n ks.
Proof.
  intros Hg Hs Hin. pose proof (key_paths g E W o v Hg) as H. rewrite Hs in H. destruct H as [_ H].
  rewrite Forall_forall in H. destruct (H _ Hin) as [_ He]. exact He.
Qed.
Lemma kept_refuted : exists v, forall E, exists st b s ks,
  s_marshal_opt go_grow E world1 opt_by_name v = Ok (st, b) /\ In (s, ks) (st_told st) /\
  told_right v ks /\ ~ told_right v (shows (st_mem st) s).
Proof.
  exists ex_mixed. intros E. destruct (ex_mixed_told E) as (st & b & Hm & H1 & H2). exists st, b.
  rewrite nth_error_map in H1, H2. destruct (nth_error (st_told st) 1) as [[s ks]|] eqn:En; [|discriminate].
  cbn [option_map snd fst] in H1, H2. exists s, ks. split; [exact Hm|]. split; [eapply nth_error_In; exact En|].
  split.
  - assert (T := told_paths go_grow E world1 opt_by_name ex_mixed st b go_grows Hm). rewrite Forall_forall in T.
    exact (T (s, ks) (nth_error_In _ _ En)).
  - injection H2 as ->. exact mixed_nowhere.
Qed.
Lemma go_fresh : fresh_length go_grow 1 /\ fresh_length go_grow 2 /\ fresh_length go_grow 3 /\ fresh_length go_grow 5 /\ ~ fresh_length go_grow 4.
Proof.
  assert (F1 := F_one go_grow). assert (F2 := F_more go_grow 1 F1). assert (F4 := F_more go_grow 2 F2).
  split; [constructor|]. split; [apply L_more; exact F1|]. split; [apply L_more; exact F2|]. split; [apply L_more; exact F4|].
  intros H. inversion H as [|n Hn Hs]. subst n.
  destruct (full_order go_grow go_grows 3 2 Hn F2) as [H'|H']; cbn in H'; lia.
Qed.
Lemma kept_short E W o v st b s ks : s_marshal_opt go_grow E W o v = Ok (st, b) -> In (s, ks) (st_told st) ->
  (List.length ks <= 3)%nat -> shows (st_mem st) s = ks.
Proof.
  intros Hs Hin Hl. destruct (kept_paths go_grow E W o v st b s ks go_grows Hs Hin) as [L F].
  destruct ks as [|k0 ks0] eqn:Ek; [now destruct (shows (st_mem st) s)|]. rewrite <- Ek in *.
  assert (Hf : fresh_length go_grow (List.length ks)).
  { destruct go_fresh as (F1 & F2 & F3 & _). destruct (List.length ks) as [|[|[|[|n]]]] eqn:En; [rewrite Ek in En; discriminate|auto..|lia]. }
  specialize (F _ Hf (le_n _)). rewrite firstn_all, <- L, firstn_all in F. exact F.
Qed.
