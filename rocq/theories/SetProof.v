(** What a successful Set does. *)
From Verif Require Import Base Utf8 Float64 Value Scan Opt Marshal ListLemmas ValueLemmas Access Path Edit SpecPath PathProof EditProof.

Lemma In_aset_other {A} k (a : A) l k' e : NoDup (akeys l) -> k' <> k -> (In (k', e) (aset k a l) <-> In (k', e) l).
Proof.
  intros ND Hk. split; intros H.
  - apply alookup_In. rewrite <- (alookup_aset_other k' k a l Hk). apply alookup_NoDup_In; [now apply NoDup_aset|exact H].
  - apply alookup_In. rewrite (alookup_aset_other k' k a l Hk). now apply alookup_NoDup_In.
Qed.

Lemma set_to_object_member E i kvs lo k c v' : NoDup (map fst kvs) ->
  set_to_object E (VObj i kvs lo) k c = Ok v' -> member_set k c (VObj i kvs lo) v'.
Proof.
  intros ND H. cbn in H. injection H as <-.
  exists i, kvs, lo, (wrap_u32 (i + 1)), (aset k (wrap_u32 (i + 1), c) kvs), (add_caseless_key E k lo).
  split; [reflexivity|]. split; [reflexivity|]. split; [reflexivity|].
  split; [now apply (NoDup_aset k _ kvs)|]. split.
  - apply alookup_In, alookup_aset_same.
  - intros k' e Hk. now apply In_aset_other.
Qed.

Lemma new_container_cases q w : new_container q = Ok w ->
  (exists k, q = PStr k /\ w = new_object) \/ (index_value q = Some 0 /\ w = new_array).
Proof.
  intros H. unfold new_container in H. destruct q as [i|u|k|l| |]; cbn in H; try discriminate.
  - right. destruct (Z.eqb_spec i 0) as [->|]; [|discriminate]. injection H as <-. auto.
  - right. destruct (Z.eqb_spec (wrap_i64 u) 0) as [E0|]; [|discriminate]. injection H as <-. split; [|reflexivity].
    cbn. congruence.
  - left. injection H as <-. eauto.
Qed.

Lemma fresh_built E c : uninitialized c = false -> forall r q w0 w x, Forall plain (q :: r) ->
  new_container q = Ok w0 -> set_c E w0 c q r = (w, Ok x) -> built (q :: r) c w /\ x = c.
Proof.
  intros Hc. induction r as [|q' r IH]; intros q w0 w x HP Hw H.
  - rewrite set_c_one in H by exact (Forall_inv HP).
    destruct (new_container_cases q w0 Hw) as [(k & -> & ->)|(Hq & ->)].
    + change (uninitialized new_object) with false in H. cbn iota in H. rewrite Hc in H. cbn in H. injection H as <- <-.
      split; [|reflexivity]. apply (built_key k [] c c). constructor.
    + change (uninitialized new_array) with false in H. cbn iota in H. rewrite Hc in H. cbn [at_last_param new_array] in H.
      rewrite (fits_any_to_int q 0 Hq) in H. cbn in H. injection H as <- <-.
      split; [|reflexivity]. apply (built_elem q [] c c Hq). constructor.
  - rewrite set_c_more in H by exact (Forall_inv HP).
    destruct (new_container_cases q w0 Hw) as [(k & -> & ->)|(Hq & ->)].
    + change (uninitialized new_object) with false in H. cbn iota in H. rewrite Hc in H. cbn [new_object any_to_string alookup] in H.
      destruct (new_container q') as [w1|e| |] eqn:E1; try discriminate.
      destruct (set_c E w1 c q' r) as [w2 [y|e| |]] eqn:E2; try discriminate.
      destruct (IH q' w1 w2 y (Forall_inv_tail HP) E1 E2) as (B & ->).
      cbn in H. injection H as <- <-. split; [|reflexivity]. apply (built_key k (q' :: r) c w2 B).
    + change (uninitialized new_array) with false in H. cbn iota in H. rewrite Hc in H. cbn [new_array] in H.
      rewrite (fits_any_to_int q 0 Hq) in H. cbn [List.length pos_read] in H.
      change (pos_read 0 0) with (@None nat) in H. cbn iota in H.
      destruct (new_container q') as [w1|e| |] eqn:E1; try discriminate.
      destruct (set_c E w1 c q' r) as [w2 [y|e| |]] eqn:E2; try discriminate.
      destruct (IH q' w1 w2 y (Forall_inv_tail HP) E1 E2) as (B & ->).
      cbn in H. injection H as <- <-. split; [|reflexivity]. apply (built_elem q (q' :: r) c w2 Hq B).
Qed.

Lemma set_at_index_writes p i l c l' : index_value p = Some i -> set_at_index l c i = Ok l' -> writes p [] c (VArr l) (VArr l').
Proof.
  intros Hp H. unfold set_at_index in H. destruct (Z.eqb_spec i (Z.of_nat (List.length l))) as [->|].
  - injection H as <-. apply writes_end; [exact Hp|]. exists l. auto.
  - destruct (pos_read (List.length l) i) as [m|] eqn:Em; [|discriminate]. injection H as <-.
    destruct (pos_read_some _ _ _ Em) as (a & x & b & -> & <- & R).
    apply writes_elem with i; [exact Hp|]. exists a, x, b. rewrite set_nth_app. auto.
Qed.

Lemma at_last_writes E v c p v' x : maps_ok v -> 
  at_last_param E v c p = (v', Ok x) -> writes p [] c v v' /\ x = c.
Proof.
  intros M H. unfold at_last_param in H.
  destruct v as [ |s|nn src|i kvs lo|l|b| | | ]; try discriminate.
  - destruct p as [j|u|k|ps| |]; try discriminate. cbn [any_to_string] in H.
    destruct (set_to_object E (VObj i kvs lo) k c) as [v1|e| |] eqn:Es; try discriminate.
    injection H as <- <-. split; [|reflexivity]. apply writes_member.
    apply maps_ok_obj in M as (ND & _). eapply set_to_object_member; eassumption.
  - destruct (any_to_int p) as [j|e| |] eqn:Ej; try discriminate.
    destruct (set_at_index l c j) as [l'|e| |] eqn:Es; try discriminate. injection H as <- <-.
    split; [|reflexivity]. apply set_at_index_writes with j; [|exact Es]. now apply any_to_int_fits.
Qed.

Lemma no_leads_key i kvs lo k : alookup k kvs = None -> forall hs x, ~ leads (VObj i kvs lo) [PStr k] hs x.
Proof.
  intros Hn hs x H. inversion H; subst.
  apply alookup_None in Hn. apply Hn.
  match goal with Hi : In (k, _) kvs |- _ => apply (in_map fst) in Hi; exact Hi end.
Qed.
Lemma no_leads_elem l p i : index_value p = Some i -> pos_read (List.length l) i = None ->
  forall hs x, ~ leads (VArr l) [p] hs x.
Proof.
  intros Hp Hn hs x H. inversion H as [|i0 kvs lo k id y ps hs0 c0 Hin Hl|a y b p0 j ps hs0 c0 Hp' R Hl]; subst.
  rewrite Hp in Hp'. injection Hp' as <-. rewrite (pos_read_refers i a y b R) in Hn. discriminate.
Qed.


(** A successful Set returns the value set and writes it as specified. *)
Theorem set_c_outcome E c : forall ps v p v' x, maps_ok v -> Forall plain (p :: ps) -> set_c E v c p ps = (v', Ok x) -> x = c /\ set_outcome v (p :: ps) c v'.
Proof.
  induction ps as [|q r IH]; intros v p v' x M HP H.
  - rewrite set_c_one in H by exact (Forall_inv HP).
    destruct (uninitialized v); [discriminate|]. destruct (uninitialized c); [discriminate|].
    destruct (at_last_writes E v c p v' x M H) as (Hw & ->). split; [reflexivity|].
    exists [], p, [], [], v. split; [reflexivity|]. split; [constructor|]. constructor. auto.
  - rewrite set_c_more in H by exact (Forall_inv HP).
    destruct (uninitialized v); [discriminate|]. destruct (uninitialized c) eqn:Hc; [discriminate|].
    destruct v as [ |s|nn src|i kvs lo|l|b| | | ]; try discriminate.
    + destruct p as [j|u|k|ls| |]; try discriminate. cbn [any_to_string] in H.
      pose proof (proj1 (maps_ok_obj _ _ _) M) as (ND & MF).
      destruct (alookup k kvs) as [[id ch]|] eqn:El.
      * destruct (set_c E ch c q r) as [ch' res] eqn:Es. injection H as <- ->.
        assert (Mc : maps_ok ch).
        { apply alookup_In in El. rewrite Forall_forall in MF. exact (MF _ El). }
        destruct (IH ch q ch' x Mc (Forall_inv_tail HP) Es) as (-> & ps1 & p0 & ps2 & hs & d & Eq & Hl & Hch).
        split; [reflexivity|]. exists (PStr k :: ps1), p0, ps2, (HKey k :: hs), d.
        split; [now rewrite Eq|]. split.
        -- eapply leads_key; [apply alookup_In; exact El|exact Hl].
        -- destruct (alookup_split _ _ _ El) as (xa & ya & -> & _ & Ha). rewrite Ha. constructor. exact Hch.
      * destruct (new_container q) as [w0|e| |] eqn:En; try discriminate.
        destruct (set_c E w0 c q r) as [w [y|e| |]] eqn:Es; try discriminate.
        destruct (fresh_built E c Hc r q w0 w y (Forall_inv_tail HP) En Es) as (B & _).
        destruct (set_to_object E (VObj i kvs lo) k w) as [v1|e| |] eqn:Eo; try discriminate. injection H as <- <-.
        split; [reflexivity|]. exists [], (PStr k), (q :: r), [], (VObj i kvs lo).
        split; [reflexivity|]. split; [constructor|]. constructor. split; [reflexivity|].
        apply writes_new_member with w; [now apply no_leads_key|exact B|].
        eapply set_to_object_member; eassumption.
    + destruct (any_to_int p) as [j|e| |] eqn:Ej; try discriminate.
      pose proof (any_to_int_fits p j Ej) as Hj.
      destruct (pos_read (List.length l) j) as [m|] eqn:Em.
      * destruct (pos_read_some _ _ _ Em) as (a & ch & b & -> & <- & R).
        assert (Hn : nth (List.length a) (a ++ ch :: b) VNil = ch).
        { clear. induction a as [|y a IH]; [reflexivity|exact IH]. }
        rewrite Hn in H. destruct (set_c E ch c q r) as [ch' res] eqn:Es. rewrite set_nth_app in H. injection H as <- ->.
        assert (Mc : maps_ok ch).
        { apply maps_ok_arr, Forall_app in M as (_ & M). exact (Forall_inv M). }
        destruct (IH ch q ch' x Mc (Forall_inv_tail HP) Es) as (-> & ps1 & p0 & ps2 & hs & d & Eq & Hl & Hch).
        split; [reflexivity|]. exists (p :: ps1), p0, ps2, (HIdx (List.length a) :: hs), d.
        split; [now rewrite Eq|]. split.
        -- eapply leads_elem; eassumption.
        -- constructor. exact Hch.
      * destruct (new_container q) as [w0|e| |] eqn:En; try discriminate.
        destruct (set_c E w0 c q r) as [w [y|e| |]] eqn:Es; try discriminate.
        destruct (fresh_built E c Hc r q w0 w y (Forall_inv_tail HP) En Es) as (B & _).
        injection H as <- <-.
        split; [reflexivity|]. exists [], p, (q :: r), [], (VArr l).
        split; [reflexivity|]. split; [constructor|]. constructor. split; [reflexivity|].
        apply writes_new_elem with j w; [exact Hj| |exact B|exists l; auto].
        exact (no_leads_elem l p j Hj Em).
Qed.

(** ** Places *)

Lemma sits_obj i kvs lo h q x : sits (VObj i kvs lo) (h :: q) x <->
  exists k id y, h = HKey k /\ In (k, (id, y)) kvs /\ sits y q x.
Proof.
  split.
  - intros H. inversion H; subst. eauto 6.
  - intros (k & id & y & -> & H1 & H2). econstructor; eassumption.
Qed.
Lemma sits_arr l h q x : sits (VArr l) (h :: q) x <->
  exists n y, h = HIdx n /\ nth_error l n = Some y /\ sits y q x.
Proof.
  split.
  - intros H. inversion H as [| |a y b hs c Hs]; subst. exists (List.length a), y. rewrite nth_error_app_here. auto.
  - intros (n & y & -> & H1 & H2). destruct (nth_error_split' _ _ _ H1) as (a & b & -> & <-). now constructor.
Qed.
Lemma sits_leaf v h q x : sits v (h :: q) x -> (exists i kvs lo, v = VObj i kvs lo) \/ (exists l, v = VArr l).
Proof. intros H. inversion H; subst; eauto. Qed.

Lemma hop_dec (a b : hop) : {a = b} + {a <> b}.
Proof.
  destruct a as [n|k], b as [m|k']; try (right; discriminate).
  - destruct (Nat.eq_dec n m) as [->|N]; [now left|right; congruence].
  - destruct (bytes_dec k k') as [->|N]; [now left|right; congruence].
Qed.

Lemma leads_sits v ps hs c : leads v ps hs c -> sits v hs c.
Proof. induction 1; econstructor; eauto. Qed.

(** The change leaves alone what is not under hop [h]. *)
Definition keeps (h : hop) (d d' : V) : Prop :=
  forall h' q x, h' <> h -> (sits d (h' :: q) x <-> sits d' (h' :: q) x).

Lemma changed_frame R h : forall hs v v', changed R hs v v' -> maps_ok v ->
  (forall d d', R d d' -> keeps h d d') ->
  forall q x, unrelated q (hs ++ [h]) -> (sits v q x <-> sits v' q x).
Proof.
  induction 1 as [v v' HR|i a k id y y' b lo hs Hc IH|a y y' b hs Hc IH]; intros M HK q x (U1 & U2).
  - destruct q as [|h' q]; [destruct U1; exact I|]. apply (HK _ _ HR). intros ->. apply U2. cbn. auto.
  - destruct q as [|h' q]; [destruct U1; exact I|]. apply maps_ok_obj in M as (ND & MF).
    destruct (hop_dec h' (HKey k)) as [->|N].
    + assert (U : unrelated q (hs ++ [h])).
      { split; intros C; [apply U1|apply U2]; cbn; auto. }
      assert (My : maps_ok y).
      { rewrite Forall_app in MF. destruct MF as (_ & MF). exact (Forall_inv MF). }
      specialize (IH My HK q x U).
      assert (One : forall z w, NoDup (map fst (a ++ (k, (id, z)) :: b)) ->
                (sits (VObj i (a ++ (k, (id, z)) :: b) lo) (HKey k :: q) w <-> sits z q w)).
      { intros z w ND'. rewrite sits_obj. split.
        - intros (k1 & id1 & z1 & [= <-] & Hin & Hs).
          assert (Hin' : In (k, (id, z)) (a ++ (k, (id, z)) :: b)) by (apply in_or_app; right; now left).
          pose proof (alookup_NoDup_In _ _ _ ND' Hin) as L1. pose proof (alookup_NoDup_In _ _ _ ND' Hin') as L2.
          rewrite L1 in L2. injection L2 as <- <-. exact Hs.
        - intros Hs. exists k, id, z. split; [reflexivity|]. split; [apply in_or_app; right; now left|exact Hs]. }
      rewrite One by exact ND. rewrite One; [exact IH|]. revert ND. rewrite !map_app. auto.
    + rewrite !sits_obj. split; intros (k1 & id1 & z1 & -> & Hin & Hs); exists k1, id1, z1; (split; [reflexivity|]); (split; [|exact Hs]);
        apply in_app_or in Hin as [Hin|[Hin|Hin]]; apply in_or_app; auto; try (now right; right);
        injection Hin as <- _ _; now destruct N.
  - destruct q as [|h' q]; [destruct U1; exact I|]. apply maps_ok_arr in M.
    destruct (hop_dec h' (HIdx (List.length a))) as [->|N].
    + assert (U : unrelated q (hs ++ [h])).
      { split; intros C; [apply U1|apply U2]; cbn; auto. }
      assert (My : maps_ok y).
      { rewrite Forall_app in M. destruct M as (_ & M). exact (Forall_inv M). }
      specialize (IH My HK q x U). rewrite !sits_arr.
      split; intros (n & z & [= <-] & Hn & Hs); rewrite nth_error_app_here in Hn; injection Hn as <-;
        exists (List.length a); eexists; rewrite nth_error_app_here; (split; [reflexivity|]); (split; [reflexivity|]); now apply IH.
    + rewrite !sits_arr. split; intros (n & z & -> & Hn & Hs); exists n, z; (split; [reflexivity|]); (split; [|exact Hs]);
        rewrite <- Hn;
        (destruct (Nat.lt_ge_cases n (List.length a)) as [L|L];
         [rewrite !nth_error_app1 by exact L; reflexivity|]);
        rewrite !nth_error_app2 by exact L;
        (destruct (n - List.length a)%nat as [|m] eqn:Em; [|reflexivity]);
        exfalso; apply N; f_equal; lia.
Qed.

Lemma changed_leads (R : V -> V -> Prop) ps d : forall hs v, leads v ps hs d -> maps_ok v -> forall v',
  changed (fun x x' => x = d /\ R x x') hs v v' ->
  exists d', R d d' /\ leads v' ps hs d' /\ changed (fun x x' => x = d /\ x' = d') hs v v'.
Proof.
  intros hs v H. induction H as [v|i kvs lo k id x ps hs c Hin Hl IH|a x b p i ps hs c Hp Rf Hl IH]; intros M v' Hc.
  - inversion Hc as [v1 v2 (_ & HR)| |]; subst. exists v'. split; [exact HR|]. split; [constructor|]. constructor. auto.
  - inversion Hc as [|i1 a k1 id1 y y' b lo1 hs1 Hc' E1 E2 E3|]; subst. apply maps_ok_obj in M as (ND & MF).
    assert (Ey : (id1, y) = (id, x)).
    { assert (Hin' : In (k, (id1, y)) (a ++ (k, (id1, y)) :: b)) by (apply in_or_app; right; now left).
      pose proof (alookup_NoDup_In _ _ _ ND Hin) as L1. pose proof (alookup_NoDup_In _ _ _ ND Hin') as L2. congruence. }
    injection Ey as -> ->.
    assert (Mx : maps_ok x) by (rewrite Forall_forall in MF; exact (MF _ Hin)).
    destruct (IH Mx y' Hc') as (d' & HR & Hl' & Hd). exists d'. split; [exact HR|]. split; [|exact (changed_key _ _ _ _ _ _ _ _ _ _ Hd)].
    eapply leads_key; [|exact Hl']. apply in_or_app. right. now left.
  - inversion Hc as [| |a1 y y' b1 hs1 Hc' E1 E2 E3]; subst. apply maps_ok_arr, Forall_app in M as (_ & M).
    assert (Ea : a1 = a /\ y = x /\ b1 = b).
    { assert (Lx : a1 = a) by (revert E1 E2; clear; revert a; induction a1 as [|z a1 IHa]; intros [|z' a]; cbn; intros; try discriminate; auto;
        match goal with H : _ :: _ = _ :: _ |- _ => injection H as <- H end; f_equal; apply IHa; auto; congruence).
      subst a1. match goal with H : a ++ _ = a ++ _ |- _ => apply app_inv_head in H; injection H as <- <- end. auto. }
    destruct Ea as (-> & -> & ->).
    destruct (IH (Forall_inv M) y' Hc') as (d' & HR & Hl' & Hd). exists d'. split; [exact HR|]. split; [|exact (changed_elem _ _ _ _ _ _ Hd)].
    eapply leads_elem; eassumption.
Qed.
