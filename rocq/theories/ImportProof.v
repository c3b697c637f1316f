(** Import against its specification. *)
From Verif Require Import Base Utf8 Float64 Value Scan Unmarshal Opt Marshal Access Path Edit Iter Base64 GoValue Import
  SpecJson SpecValue SpecBase64 SpecPath SpecGet SpecIter SpecImport ListLemmas ValueLemmas SortProof Base64Proof IterProof GetProof ParseComplete ParseMore.

(** *** Tags *)

Lemma split_join : forall ps, ps <> [] -> Forall (fun p => ~ In 44 p) ps -> split_comma (join_comma ps) = ps.
Proof.
  assert (G : forall p s, ~ In 44 p -> split_comma (p ++ 44 :: s) = p :: split_comma s).
  { induction p as [|c p IH]; intros s Hp; [reflexivity|]. cbn [app split_comma].
    destruct (Z.eqb_spec c 44) as [->|Hc]; [exfalso; apply Hp; now left|]. rewrite IH; [reflexivity|]. intros H. apply Hp. now right. }
  assert (G0 : forall p, ~ In 44 p -> split_comma p = [p]).
  { induction p as [|c p IH]; intros Hp; [reflexivity|]. cbn [split_comma].
    destruct (Z.eqb_spec c 44) as [->|Hc]; [exfalso; apply Hp; now left|]. rewrite IH; [reflexivity|]. intros H. apply Hp. now right. }
  induction ps as [|p ps IH]; intros Hne Hp; [congruence|]. inversion Hp as [|? ? H1 H2]; subst.
  destruct ps as [|q ps]; [now apply G0|]. cbn [join_comma]. rewrite G by assumption. f_equal. apply IH; [discriminate|assumption].
Qed.
Lemma join_split s : join_comma (split_comma s) = s /\ split_comma s <> [] /\ Forall (fun p => ~ In 44 p) (split_comma s).
Proof.
  induction s as [|c s (IH1 & IH2 & IH3)]; [repeat split; [discriminate|]; repeat constructor; intros []|].
  cbn [split_comma]. destruct (split_comma s) as [|p ps] eqn:Es; [congruence|].
  destruct (Z.eqb_spec c 44) as [->|Hc].
  - split; [cbn; now rewrite <- IH1|]. split; [discriminate|]. constructor; [intros []|assumption].
  - inversion IH3; subst. split; [destruct ps; reflexivity|]. split; [discriminate|]. constructor; [|assumption].
    intros [->|H]; [congruence|auto].
Qed.
Lemma tag_parts_exist tag : exists name opts, tag_parts tag name opts.
Proof.
  destruct (join_split tag) as (H1 & H2 & H3). destruct (split_comma tag) as [|p ps]; [congruence|]. exists p, ps. now split.
Qed.
Lemma tag_parts_split tag name opts : tag_parts tag name opts -> split_comma tag = name :: opts.
Proof. intros (-> & H). apply split_join; [discriminate|assumption]. Qed.

Lemma existsb_In s opts : existsb (beqb s) opts = true <-> In s opts.
Proof.
  rewrite existsb_exists. split.
  - intros (x & Hx & H). destruct (beqb_spec s x); [now subst|discriminate].
  - intros H. exists s. split; [assumption|]. destruct (beqb_spec s s); congruence.
Qed.

Lemma trim_no_space s : no_space_ends s -> trim_space s = s.
Proof.
  intros H. change s with ([] ++ s) at 1. rewrite <- (app_nil_r s) at 1.
  apply trim_space_of; [exists []; split; [constructor|reflexivity]|exists []; split; [constructor|reflexivity]|..].
  - rewrite app_nil_r. intros e r He Hr. destruct (H e He) as (G & _). exact (G _ Hr).
  - intros e r He Hr. unfold rencs in He. apply in_map_iff in He as (e0 & <- & He0).
    destruct (H e0 He0) as (_ & G). apply (G (rev r)). rewrite <- (rev_involutive s), Hr, rev_app_distr, rev_involutive. reflexivity.
Qed.

Lemma read_tag f name opts parent : tag_parts (gf_tag f) name opts -> no_space_ends name ->
  read_field_tag f parent = (field_key f name, Ext (existsb (beqb (bs "omitempty")) opts) (existsb (beqb (bs "string")) opts) false (x_ign parent)).
Proof.
  intros Ht Hs. unfold read_field_tag. pose proof (tag_parts_split _ _ _ Ht) as Es.
  destruct (gf_tag f) as [|c tg]; [cbn in Es; injection Es as <- <-; reflexivity|].
  rewrite Es. cbn [hd tl]. now rewrite (trim_no_space _ Hs).
Qed.

(** *** Building containers *)

Lemma append_new E W l c : must_op (append_end E W (VArr l) (arg_v c) []) = Ok (VArr (l ++ [c])).
Proof. reflexivity. Qed.

Lemma append_all_ok E W : forall xs cs l, Forall2 (fun x c => x = Ok c) xs cs -> append_all E W (VArr l) xs = Ok (VArr (l ++ cs)).
Proof.
  intros xs cs l H. revert l. induction H as [|x c xs cs -> _ IH]; intros l; [cbn; now rewrite app_nil_r|].
  cbn [append_all rbind]. rewrite append_new. cbn [rbind]. rewrite IH, <- app_assoc. reflexivity.
Qed.

Lemma aset_new {A} k (a : A) l : ~ In k (map fst l) -> aset k a l = l ++ [(k, a)].
Proof.
  induction l as [|[k' b] l IH]; intros H; [reflexivity|]. cbn [aset]. destruct (beqb_spec k k') as [->|_]; [exfalso; apply H; now left|].
  cbn [app]. f_equal. apply IH. intros G. apply H. now right.
Qed.

Lemma set_new E i kvs lo k c : uninitialized c = false -> ~ In k (map fst kvs) -> exists i' lo',
  must_op (set_at E (VObj i kvs lo) (arg_v c) (PStr k) []) = Ok (VObj i' (kvs ++ [(k, (i', c))]) lo').
Proof.
  intros Hc Hk. unfold set_at, arg_v. cbn [snd fst set_f peel psum]. cbn [uninitialized is_nil not_exist orb].
  fold (uninitialized c). rewrite Hc. cbn [at_last_param any_to_string set_to_object]. unfold must_op. cbn [snd fst].
  rewrite aset_new by assumption. eauto.
Qed.

Lemma set_all_fresh E : forall kcs i kvs lo, Forall (fun kc => uninitialized (snd kc) = false) kcs ->
  NoDup (map fst kvs ++ map fst kcs) -> exists i' es lo',
  set_all E (VObj i kvs lo) kcs = Ok (VObj i' (kvs ++ es) lo') /\ members es = kcs.
Proof.
  induction kcs as [|[k c] kcs IH]; intros i kvs lo Hc Hn.
  - exists i, [], lo. rewrite app_nil_r. split; reflexivity.
  - inversion Hc as [|? ? Hc1 Hc2]; subst. cbn [map fst] in Hn.
    assert (Hk : ~ In k (map fst kvs)).
    { intros Hi. apply NoDup_remove_2 in Hn. apply Hn, in_or_app. now left. }
    destruct (set_new E i kvs lo k c Hc1 Hk) as (i1 & lo1 & Hs). cbn [set_all]. rewrite Hs. cbn [rbind].
    destruct (IH i1 (kvs ++ [(k, (i1, c))]) lo1 Hc2) as (i2 & es & lo2 & H1 & H2).
    { rewrite map_app, <- app_assoc. exact Hn. }
    exists i2, ((k, (i1, c)) :: es), lo2. rewrite H1, <- app_assoc. split; [reflexivity|]. cbn [members map]. now rewrite <- H2.
Qed.

(** *** Shown trees *)

Lemma shows_arr E ts l : shows_tree E (TArr ts) (VArr l) <-> Forall2 (shows_tree E) ts l.
Proof.
  revert l. induction ts as [|t ts IH]; intros [|x l]; cbn; split; intros H; try (now inversion H); try constructor.
  - apply H.
  - apply IH, H.
  - now inversion H.
  - apply (IH l). now inversion H.
Qed.

Definition shown E (kvs : list kv) (m : bytes * tree) : Prop := exists id x, In (fst m, (id, x)) kvs /\ shows_tree E (snd m) x.
Lemma shows_obj E ms i kvs lo : shows_tree E (TObj ms) (VObj i kvs lo) <->
  NoDup (map fst kvs) /\ (forall k, In k (map fst kvs) <-> In k (map fst ms)) /\ Forall (shown E kvs) ms.
Proof.
  cbn [shows_tree].
  enough (G : forall ms, (fix go (ms : list (bytes * tree)) : Prop :=
       match ms with
       | [] => True
       | (k, t) :: r => (exists id x, In (k, (id, x)) kvs /\ shows_tree E t x) /\ go r
       end) ms <-> Forall (shown E kvs) ms) by (now rewrite G).
  clear ms. induction ms as [|[k t] ms IH]; [split; auto|]. rewrite IH. split; [intros (H1 & H2); constructor; assumption|].
  intros H. inversion H; subst. split; assumption.
Qed.

Lemma tree_typed E t v : shows_tree E t v -> uninitialized v = false.
Proof.
  assert (G : forall v, json_typed v -> uninitialized v = false) by (intros []; cbn; intuition).
  destruct t; destruct v; cbn [shows_tree]; try (intros []; fail); try reflexivity; intros H.
  all: try (destruct H as (H & _); now apply G in H).
  all: destruct j; destruct H.
Qed.

(** What a field adds to the object: the children [kcs] for the members [ds]. *)
Definition adds E (kcs : list (bytes * V)) (ds : list (bytes * tree)) : Prop :=
  exists kcs', Permutation kcs kcs' /\ Forall2 (fun (kc : bytes * V) m => fst kc = fst m /\ shows_tree E (snd m) (snd kc)) kcs' ds.

Lemma NoDup_app_split {A} (a b : list A) : NoDup (a ++ b) <-> NoDup a /\ NoDup b /\ forall x, In x a -> ~ In x b.
Proof.
  induction a as [|x a IH]; cbn [app]; [split; [intros H; repeat split; [constructor|assumption|intros ? []]|tauto]|].
  rewrite !NoDup_cons_iff, IH, in_app_iff. split.
  - intros (H1 & H2 & H3 & H4). repeat split; [tauto|assumption|assumption|]. intros y [<-|Hy]; [tauto|auto].
  - intros ((H1 & H2) & H3 & H4). repeat split; [|assumption|assumption|]; [intros [G|G]; [tauto|exact (H4 x (or_introl eq_refl) G)]|].
    intros y Hy. apply H4. now right.
Qed.

Lemma set_all_shows E ms ds kcs i kvs lo : shows_tree E (TObj ms) (VObj i kvs lo) -> adds E kcs ds -> NoDup (map fst (ms ++ ds)) ->
  exists i' kvs' lo', set_all E (VObj i kvs lo) kcs = Ok (VObj i' kvs' lo') /\ shows_tree E (TObj (ms ++ ds)) (VObj i' kvs' lo').
Proof.
  intros Hs (kcs' & Hp & Hf) Hn. apply shows_obj in Hs as (S1 & S2 & S3).
  assert (Hk : map fst kcs' = map fst ds) by (clear -Hf; induction Hf as [|? ? ? ? (H & _) _ IH]; cbn; congruence).
  assert (Hkp : Permutation (map fst kcs) (map fst ds)) by (rewrite <- Hk; now apply Permutation_map).
  destruct (set_all_fresh E kcs i kvs lo) as (i' & es & lo' & H1 & H2).
  - rewrite Forall_forall. intros kc Hkc. apply (Permutation_in _ Hp) in Hkc.
    clear -Hf Hkc. induction Hf as [|a b l l' (_ & H) _ IH]; [destruct Hkc|]. destruct Hkc as [<-|Hi]; [now apply tree_typed in H|auto].
  - rewrite map_app in Hn. apply NoDup_app_split in Hn as (N1 & N2 & N3). apply NoDup_app_split. split; [assumption|].
    split; [now apply (Permutation_NoDup (Permutation_sym Hkp))|].
    intros k Hk1 Hk2. apply (N3 k); [now apply S2|now apply (Permutation_in _ Hkp)].
  - exists i', (kvs ++ es), lo'. split; [assumption|]. apply shows_obj.
    assert (Hme : map fst es = map fst kcs) by (rewrite <- H2; unfold members; now rewrite map_map).
    rewrite map_app, Hme. split; [|split].
    + rewrite map_app in Hn. apply NoDup_app_split in Hn as (N1 & N2 & N3). apply NoDup_app_split. split; [assumption|].
      split; [now apply (Permutation_NoDup (Permutation_sym Hkp))|].
      intros k Hk1 Hk2. apply (N3 k); [now apply S2|now apply (Permutation_in _ Hkp)].
    + intros k. rewrite map_app, !in_app_iff, S2. split; (intros [H|H]; [now left|right]).
      * now apply (Permutation_in _ Hkp).
      * now apply (Permutation_in _ (Permutation_sym Hkp)).
    + apply Forall_app. split.
      * revert S3. apply Forall_impl. intros m (id & x & Hi & Hx). exists id, x. split; [apply in_or_app; now left|assumption].
      * rewrite Forall_forall. intros m Hm.
        assert (Hc : exists kc, In kc kcs' /\ fst kc = fst m /\ shows_tree E (snd m) (snd kc)).
        { clear -Hf Hm. induction Hf as [|a b l l' H _ IH]; [destruct Hm|]. destruct Hm as [<-|Hi]; [exists a; split; [now left|assumption]|].
          destruct (IH Hi) as (kc & ? & ?). exists kc. split; [now right|assumption]. }
        destruct Hc as (kc & Hkc & Hf1 & Hf2). apply (Permutation_in _ (Permutation_sym Hp)) in Hkc. rewrite <- H2 in Hkc.
        unfold members in Hkc. apply in_map_iff in Hkc as ([k [id x]] & <- & Hi). cbn [fst snd] in *. exists id, x. rewrite <- Hf1.
        split; [apply in_or_app; now right|assumption].
Qed.

(** The members of an object that shows [ns], in the order of setting. *)
Lemma range_shows E W i kvs lo ns : NoDup (map fst ns) -> shows_tree E (TObj ns) (VObj i kvs lo) -> exists kcs,
  range_objects_by_set W [] (VObj i kvs lo) (Some (fun s e => (s ++ [e], true))) [] = Ok kcs /\ adds E kcs ns.
Proof.
  intros Hn Hs. apply shows_obj in Hs as (S1 & S2 & S3).
  cbn [range_objects_by_set api_is_object on_value vtype_of vtype_eqb rbind negb object_of].
  set (es := go_sort W _ _).
  assert (Hp : Permutation es kvs) by (unfold es; rewrite go_sort_perm; apply go_range_perm).
  assert (Hr : forall (l : list (bytes * V)) s, range_list (fun s e => (s ++ [e], true)) l s = s ++ l).
  { induction l as [|e l IH]; intros s; cbn [range_list]; [now rewrite app_nil_r|]. rewrite IH, <- app_assoc. reflexivity. }
  exists (entries es). rewrite Hr. split; [reflexivity|].
  assert (Hc : exists kcs', Forall2 (fun (kc : bytes * V) m => fst kc = fst m /\ shows_tree E (snd m) (snd kc)) kcs' ns /\
                            forall e, In e kcs' -> In e (entries kvs)).
  { clear -S3. induction S3 as [|[k t] ns (id & x & Hi & Hx) _ (kcs' & H1 & H2)]; [exists []; split; [constructor|intros ? []]|].
    exists ((k, x) :: kcs'). split; [constructor; [split; [reflexivity|assumption]|assumption]|].
    intros e [<-|He]; [|auto]. unfold entries. apply in_map_iff. exists (k, (id, x)). split; [reflexivity|assumption]. }
  destruct Hc as (kcs' & H1 & H2). exists kcs'. split; [|assumption].
  assert (Hk : map fst kcs' = map fst ns) by (clear -H1; induction H1 as [|? ? ? ? (H & _) _ IH]; cbn; congruence).
  transitivity (entries kvs); [unfold entries; now apply Permutation_map|]. symmetry. apply NoDup_Permutation_bis; [| |exact H2].
  - apply (NoDup_map_inv fst). now rewrite Hk.
  - assert (L1 : List.length kcs' = List.length (map fst ns)) by (rewrite <- Hk; now rewrite map_length).
    assert (L2 : List.length (entries kvs) = List.length (map fst kvs)) by (unfold entries; now rewrite !map_length).
    rewrite L1, L2. apply NoDup_incl_length; [assumption|]. intros k. apply S2.
Qed.

(** *** The parts of the extension that matter *)

Lemma ro_field_embed f : ro_field REmbed f = ro_field RNone f.
Proof. reflexivity. Qed.

Section Import.
Variable E : Env.
Variable W : World.
Variable d : opt.
Notation imp := (import_val E W d).

Lemma read_tag_ign f ex ex' : x_ign ex = x_ign ex' -> read_field_tag f ex = read_field_tag f ex'.
Proof. intros H. unfold read_field_tag. now rewrite H. Qed.

Lemma import_struct_ext fs r ex : r <> RSticky -> imp (GStruct fs) r ex = imp (GStruct fs) RNone (Ext false false false (x_ign ex)).
Proof.
  intros Hr. cbn [import_val]. f_equal. apply map_ext. intros (f, x).
  assert (Er : ro_field r f = ro_field RNone f) by (destruct r; [reflexivity|reflexivity|congruence]).
  unfold parse_anonymous, parse_field, read_anonymous_tag. rewrite Er, (read_tag_ign f ex (Ext false false false (x_ign ex)) eq_refl). reflexivity.
Qed.
Lemma import_struct_of g gs r ex : struct_of g = Some gs -> r <> RSticky -> imp g r ex = imp g RNone (Ext false false false (x_ign ex)).
Proof.
  destruct g as [ |b|z|z|f|f|l|l|b|s|m| |[g|]|g|fs|v|v|m|m| ]; try discriminate; [destruct g; try discriminate|]; intros _ Hr.
  - apply (import_struct_ext _ r ex Hr).
  - now apply import_struct_ext.
Qed.

Lemma not_empty_map m : (fix go (m : list (gkey * gov)) : Prop := match m with [] => True | (_, x) :: r => not_empty x /\ go r end) m <->
  Forall (fun e : gkey * gov => not_empty (snd e)) m.
Proof. induction m as [|[k x] m IH]; [split; auto|]. rewrite IH. split; [intros (? & ?); now constructor|intros H; inversion H; auto]. Qed.
Lemma alike_map ign m : (fix go (m : list (gkey * gov)) : Prop := match m with [] => True | (_, x) :: r => alike ign x /\ go r end) m <->
  Forall (fun e : gkey * gov => alike ign (snd e)) m.
Proof. induction m as [|[k x] m IH]; [split; auto|]. rewrite IH. split; [intros (? & ?); now constructor|intros H; inversion H; auto]. Qed.
Lemma alike_list ign l : (fix go (l : list gov) : Prop := match l with [] => True | x :: r => alike ign x /\ go r end) l <->
  Forall (alike ign) l.
Proof. induction l as [|x l IH]; [split; auto|]. rewrite IH. split; [intros (? & ?); now constructor|intros H; inversion H; auto]. Qed.
Lemma alike_fields ign fs : alike ign (GStruct fs) <-> Forall (fun e : gfield * gov => field_alike ign (fst e) (snd e) (alike ign (snd e))) fs.
Proof.
  cbn [alike]. induction fs as [|[f x] fs IH]; [split; auto|]. rewrite IH. split; [intros (? & ?); now constructor|intros H; inversion H; auto].
Qed.

(** Nothing is omitted from a value that is not_empty. *)
Lemma import_not_empty ign g : forall r s p i, not_empty g -> alike ign g -> imp g r (Ext true s p i) = imp g r (Ext false s p i).
Proof.
  induction g as [ |b|z|z|f|f|l IH| |l IH|b|x| |m IH| | |g IH|g IH|fs IH|v|v|m|m| ] using gov_ind'; intros r s p i Hs Ha;
    try (destruct Hs; fail); try reflexivity.
  - cbn in Hs. subst b. reflexivity.
  - cbn in Hs. cbn [import_val]. unfold parse_int, omit_or. destruct (Z.eqb_spec z 0); [contradiction|]. reflexivity.
  - cbn in Hs. cbn [import_val]. unfold parse_uint, omit_or. destruct (Z.eqb_spec z 0); [contradiction|]. reflexivity.
  - cbn in Hs. cbn [import_val]. unfold parse_float. assert (Ez : is_zero_float f = false) by (destruct f as [b| | |b m e]; [now destruct (Hs b)|destruct s0; reflexivity|reflexivity|destruct b; reflexivity]).
    now rewrite Ez.
  - cbn in Hs. cbn [import_val]. unfold parse_float. assert (Ez : is_zero_float f = false) by (destruct f as [b| | |b m e]; [now destruct (Hs b)|destruct s0; reflexivity|reflexivity|destruct b; reflexivity]).
    now rewrite Ez.
  - cbn in Hs. destruct Hs as (Hs & _). congruence.
  - destruct l as [|x l]; [cbn in Hs; destruct Hs as (_ & Hs); congruence|]. reflexivity.
  - cbn in Hs. destruct b as [[|c b]|]; try (destruct Hs; congruence). reflexivity.
  - cbn in Hs. destruct x as [|c x]; [congruence|]. reflexivity.
  - destruct m as [|e m]; [cbn in Hs; destruct Hs; congruence|].
    destruct Hs as (_ & Hs). apply (not_empty_map (e :: m)) in Hs. apply (alike_map ign (e :: m)) in Ha.
    cbn [import_val]. f_equal. clear -IH Hs Ha. induction IH as [|[k x] l Hx _ IHl]; [reflexivity|].
    inversion Hs; subst. inversion Ha; subst. cbn [map]. f_equal; [f_equal; now apply Hx|now apply IHl].
  - cbn [not_empty] in Hs. destruct g; try (destruct Ha; fail); exact (IH r s p i Hs Ha).
  - exact (IH _ s p i Hs Ha).
  - destruct m as [| |[b| | |]]; try (destruct Hs; fail). cbn in Hs. destruct b; [congruence|]. reflexivity.
Qed.

(** Everything is omitted from a value that is hollow. *)
Lemma import_hollow g s p : hollow g -> imp g RNone (Ext true s p false) = Ok VNil.
Proof.
  intros (He & Hx). destruct g as [ |b|z|z|f|f|l|l|b|x|m| |[g|]|g|fs|v|v|m|m| ]; cbn in He, Hx; try contradiction; try reflexivity.
  - subst. reflexivity.
  - subst. reflexivity.
  - subst. reflexivity.
  - destruct He as (b & ->). reflexivity.
  - destruct He as (b & ->). reflexivity.
  - destruct He as [-> | ->]; reflexivity.
  - destruct He as [-> | ->]; reflexivity.
  - subst. reflexivity.
  - destruct He as [-> | ->]; reflexivity.
  - discriminate.
  - subst. reflexivity.
  - subst. reflexivity.
  - destruct m; try contradiction; reflexivity.
  - destruct m; try contradiction; reflexivity.
Qed.

(** *** Scalars *)

Lemma int_shown z : - two63 <= z < two63 -> shows_tree E (TInt z) (new_int64 z).
Proof.
  intros Hz. split; [reflexivity|]. split; [reflexivity|]. split; [reflexivity|]. split; [reflexivity|]. split; [reflexivity|].
  intros H. cbn [n_u64]. unfold wrap_u64. rewrite Z.mod_small; [reflexivity|assumption].
Qed.
Lemma uint_shown z : 0 <= z < two64 -> shows_tree E (TInt z) (new_uint64 z).
Proof.
  intros Hz. split; [reflexivity|]. split; [reflexivity|]. split; [symmetry; apply Z.ltb_ge; lia|]. split; [reflexivity|]. split; [|reflexivity].
  intros H. cbn [n_i64]. unfold wrap_i64. unfold two63, two64 in *. rewrite Z.mod_small; lia.
Qed.
Lemma finite_valid f : finite64 f -> is_valid_float f = true.
Proof. destruct f as [[]|[]| |[]]; cbn; intros H; try contradiction; reflexivity. Qed.
Lemma float64_shown f : finite64 f -> exists n src, new_float64 E f = VNum n src /\ n_f64 n = f /\ float_text E f 64 src.
Proof.
  intros Hf. unfold new_float64, new_float64f_. rewrite (finite_valid _ Hf). do 2 eexists. split; [reflexivity|]. split; [reflexivity|].
  unfold float_text. destruct (_ || _); auto.
Qed.
Lemma float32_shown f : finite64 f -> exists n src, new_float32 E f = VNum n src /\ n_f64 n = f /\ float_text E f 32 src.
Proof.
  intros Hf. unfold new_float32, new_float64f_. rewrite (finite_valid _ Hf). do 2 eexists. split; [reflexivity|]. split; [reflexivity|].
  unfold float_text. destruct (_ || _); auto.
Qed.

Lemma copy_same v : json_typed v -> json_typed (deep_copy v) /\ forget (deep_copy v) = forget v.
Proof.
  induction v as [ |s|n src|i kvs lo IH|l IH|b| | | ] using V_ind'; intros H; try (split; [exact H|reflexivity]); try contradiction.
  - apply json_typed_obj in H as (H1 & H2).
    assert (Hm : map (fun e : kv => let '(k, (id, x)) := e in (k, (id, deep_copy x))) kvs =
                 map (fun e : kv => (fst e, (fst (snd e), deep_copy (snd (snd e))))) kvs) by (apply map_ext; intros (k, (id, x)); reflexivity).
    assert (HF : Forall (fun e : kv => json_typed (deep_copy (snd (snd e))) /\ forget (deep_copy (snd (snd e))) = forget (snd (snd e))) kvs).
    { rewrite Forall_forall in *. auto. }
    cbn [deep_copy]. rewrite Hm. split.
    + apply json_typed_obj. unfold akeys in *. rewrite map_map. split; [exact H1|]. rewrite Forall_map. revert HF. apply Forall_impl. intros (k, (id, x)) (G & _). exact G.
    + cbn [forget]. rewrite map_map. f_equal. apply map_ext_in. intros (k, (id, x)) Hi. rewrite Forall_forall in HF. destruct (HF _ Hi) as (_ & G). cbn [fst snd] in *. now rewrite G.
  - apply json_typed_arr in H.
    assert (HF : Forall (fun x => json_typed (deep_copy x) /\ forget (deep_copy x) = forget x) l) by (rewrite Forall_forall in *; auto).
    cbn [deep_copy]. split.
    + apply json_typed_arr. rewrite Forall_map. revert HF. apply Forall_impl. intros x (G & _). exact G.
    + cbn [forget]. rewrite map_map. f_equal. apply map_ext_in. intros x Hi. rewrite Forall_forall in HF. now apply HF.
Qed.

Lemma Forall2_pick {A B C} (P : A -> B -> Prop) (Q : B -> C -> Prop) (f : A -> C) l m :
  Forall2 P l m -> Forall (fun a => forall b, P a b -> Q b (f a)) l -> Forall2 Q m (map f l).
Proof. induction 1; intros HF; inversion HF; subst; cbn; constructor; auto. Qed.

(** *** Values under the option "string" *)

Definition fmt_ok := forall f c b, fmt_float E f c (-1) b <> [].

Lemma float_quoted v n src s : src <> [] -> v = VNum n src -> must_marshal E W d [] v = Ok s -> s = src.
Proof. intros Hs -> Hm. destruct src as [|c src]; [congruence|]. cbn in Hm. congruence. Qed.
Lemma quoted_float v f ex n src : fmt_ok -> x_omit ex = false -> x_priv ex = false -> x_str ex = true ->
  v = VNum n src -> src <> [] -> parse_float E W d v f ex = Ok (VStr src).
Proof.
  intros _ H1 H2 H3 -> Hs. unfold parse_float, should_omit. rewrite H1, H2, H3, !andb_false_r. destruct src; [congruence|]. reflexivity.
Qed.

Definition scalar_go (g : gov) : Prop :=
  match g with GBool _ | GInt _ | GUint _ | GFloat64 _ | GFloat32 _ => True | _ => False end.
Lemma import_quoted ign g t : fmt_ok -> scalar_go g -> enc ign g t ->
  exists s, imp g RNone (Ext false true false ign) = Ok (VStr s) /\ quoted_text E t s.
Proof.
  intros HE Hg Ht.
  assert (Ho : should_omit (Ext false true false ign) = false) by (unfold should_omit; cbn; apply andb_false_r).
  destruct g; try (destruct Hg; fail); inversion Ht; subst; cbn [import_val].
  - unfold parse_bool, omit_or. rewrite Ho, andb_false_r. eexists. split; [reflexivity|]. reflexivity.
  - unfold parse_int, omit_or. rewrite Ho, andb_false_r. eexists. split; [reflexivity|]. reflexivity.
  - unfold parse_uint, omit_or. rewrite Ho, andb_false_r. eexists. split; [reflexivity|]. reflexivity.
  - destruct (float64_shown f) as (n & src & E1 & E2 & E3); [assumption|].
    assert (Hs : src <> []) by (destruct E3 as [-> | ->]; apply HE).
    exists src. split; [now apply (quoted_float _ f _ n)|exact E3].
  - destruct (float32_shown f) as (n & src & E1 & E2 & E3); [assumption|].
    assert (Hs : src <> []) by (destruct E3 as [-> | ->]; apply HE).
    exists src. split; [now apply (quoted_float _ f _ n)|exact E3].
Qed.

(** *** Fields *)

Lemma ign_omit o s p : should_omit (Ext o s p true) = should_omit (Ext false s p true).
Proof. reflexivity. Qed.
Lemma import_ign g : forall r o s p, imp g r (Ext o s p true) = imp g r (Ext false s p true).
Proof.
  induction g as [ |b|z|z|f|f|l IH| |l IH|b|x| |m IH| | |g IH|g IH|fs IH|v|v|m|m| ] using gov_ind'; intros r o s p; try reflexivity.
  - destruct m as [|e m]; [reflexivity|]. cbn [import_val]. f_equal.
    clear -IH. induction IH as [|[k x] l Hx _ IHl]; [reflexivity|]. cbn [map]. f_equal; [f_equal; apply Hx|apply IHl].
  - destruct g; try reflexivity; apply IH.
  - apply IH.
Qed.

Lemma not_empty_value g : not_empty g -> ~ empty_value g.
Proof.
  destruct g as [ |b|z|z|f|f|l|[l|]|b|x|[m|]| |[g|]|g|fs|v|v|m|m| ]; cbn; intros H G; try contradiction; try congruence.
  - destruct G as (s & ->). exact (H s eq_refl).
  - destruct G as (s & ->). exact (H s eq_refl).
  - destruct H as (_ & H). destruct G as [G|G]; congruence.
  - destruct H as (H1 & H2). destruct G as [G|G]; congruence.
  - destruct H as (H1 & H2). destruct G as [G|G]; congruence.
  - destruct H as (H & _). destruct G as [G|G]; congruence.
  - subst g. exact H.
  - destruct m; try contradiction.
Qed.

(** The field option omitempty, when the value is not empty. *)
Lemma import_omit ign g o s : alike ign g -> (o = true -> ign = false -> not_empty g) ->
  imp g RNone (Ext o s false ign) = imp g RNone (Ext false s false ign).
Proof.
  intros Ha Hn. destruct o; [|reflexivity]. destruct ign; [apply import_ign|]. apply (import_not_empty false); [now apply Hn|assumption].
Qed.
Lemma import_unquoted ign g s : quoted_alike g -> ~ quotable g -> alike ign g ->
  imp g RNone (Ext false s false ign) = imp g RNone (Ext false false false ign).
Proof.
  destruct g as [ |b|z|z|f|f|l|l|b|x|[m|]| |[g|]|g|fs|v|v|m|m| ]; cbn [quoted_alike quotable]; intros H G Ha; try contradiction; try tauto; try reflexivity.
  destruct g; tauto.
Qed.

Lemma single_not_object ign g t v : single g -> enc ign g t -> shows_tree E t v ->
  match v with VStr _ | VNum _ _ | VBool _ | VNull | VArr _ => True | _ => False end.
Proof. destruct g; try contradiction; intros _ Ht; inversion Ht; subst; destruct v; cbn [shows_tree]; intros Hs; auto. Qed.

Lemma dash_parts name opts : tag_parts (bs "-") name opts -> name = bs "-" /\ opts = [].
Proof. intros H. apply tag_parts_split in H. cbn in H. injection H as <- <-. auto. Qed.

Lemma beqb_same s : beqb s s = true.
Proof. destruct (beqb_spec s s); congruence. Qed.
Lemma beqb_other s s' : s <> s' -> beqb s s' = false.
Proof. destruct (beqb_spec s s'); congruence. Qed.

Lemma letter_private f : letter_first (gf_name f) -> negb ((65 <=? hd 0 (gf_name f)) && (hd 0 (gf_name f) <=? 90)) = false.
Proof. intros (c & r & -> & H). cbn [hd]. destruct (Z.leb_spec 65 c), (Z.leb_spec c 90); cbn; lia || reflexivity. Qed.
Lemma other_private f : ~ letter_first (gf_name f) -> negb ((65 <=? hd 0 (gf_name f)) && (hd 0 (gf_name f) <=? 90)) = true.
Proof.
  intros H. destruct (gf_name f) as [|c r] eqn:Ef; [reflexivity|]. cbn [hd].
  destruct (Z.leb_spec 65 c), (Z.leb_spec c 90); cbn; try reflexivity. exfalso. apply H. exists c, r. auto.
Qed.

(** The call for one field of a struct. *)
Definition field_call (ign : bool) (f : gfield) (x : gov) : res (list (bytes * V)) :=
  if gf_anon f then parse_anonymous W (imp x) (is_nil_ptr x) f RNone (Ext false false false ign)
  else parse_field (imp x) f RNone (Ext false false false ign).

Lemma key_not_dash f name : gf_name f <> bs "-" -> name <> bs "-" -> beqb (field_key f name) (bs "-") = false.
Proof. intros H1 H2. apply beqb_other. unfold field_key. destruct name; assumption. Qed.

(** A field with a value of its own: its call, given what the value is imported as. *)
Lemma field_call_value ign f x name opts c :
  tag_parts (gf_tag f) name opts -> no_space_ends name -> name <> bs "-" -> gf_name f <> bs "-" -> gf_exported f = true ->
  (gf_anon f = true -> gf_struct f = false /\ letter_first (gf_name f) /\ single x) ->
  imp x RNone (Ext (existsb (beqb (bs "omitempty")) opts) (existsb (beqb (bs "string")) opts) false ign) = Ok c ->
  (gf_anon f = true -> match c with VStr _ | VNum _ _ | VBool _ | VNull | VArr _ | VNil => True | _ => False end) ->
  field_call ign f x = Ok (if is_nil c then [] else [(field_key f name, c)]).
Proof.
  intros Ht Hs Hd Hn He Ha Hi Hc. unfold field_call. destruct (gf_anon f) eqn:Ef.
  - destruct (Ha eq_refl) as (_ & Hl & Hx). unfold parse_anonymous, read_anonymous_tag. rewrite (read_tag f name opts _ Ht Hs).
    rewrite (key_not_dash f name Hn Hd). replace (is_nil_ptr x) with false by (destruct x; try contradiction; reflexivity).
    cbn [x_omit x_str x_ign]. rewrite (letter_private f Hl). unfold ro_field. rewrite He. rewrite Hi. cbn [rbind].
    specialize (Hc eq_refl). destruct c; try contradiction; reflexivity.
  - unfold parse_field. unfold ro_field. rewrite He. cbn [can_interface negb]. rewrite (read_tag f name opts _ Ht Hs).
    rewrite (key_not_dash f name Hn Hd). cbn [x_ign]. rewrite Hi. reflexivity.
Qed.

Lemma adds_one k t v : shows_tree E t v -> adds E [(k, v)] [(k, t)].
Proof. intros H. exists [(k, v)]. split; [reflexivity|]. constructor; [split; [reflexivity|exact H]|constructor]. Qed.
Lemma adds_none : adds E [] [].
Proof. exists []. split; constructor. Qed.

Lemma shows_not_nil t v : shows_tree E t v -> is_nil v = false.
Proof. intros H. apply tree_typed in H. destruct v; try reflexivity; discriminate. Qed.

Lemma field_adds ign f x fs ms : fmt_ok ->
  (forall t, alike ign x -> enc ign x t -> exists v, imp x RNone (Ext false false false ign) = Ok v /\ shows_tree E t v) ->
  field_alike ign f x (alike ign x) -> enc_fields ign ((f, x) :: fs) ms -> NoDup (map fst ms) ->
  exists ds ms' kcs, ms = ds ++ ms' /\ enc_fields ign fs ms' /\ field_call ign f x = Ok kcs /\ adds E kcs ds.
Proof.
  intros HE IH (Hn & HA) HF Hd.
  inversion HF as [|? ? ? ? Hsk Hr|? ? gs ? ns ms' opts Han Hst Htg Htp Hso Hgs Hr|? ? ? opts Han Hst Htg Htp Hr|
                   ? ? ? ? name opts Hex Hem Htp Hom Hig Hev Hr|? ? ? ms' t name opts Hex Hem Htg Htp Hnc Hno Hnq Ht Hr|
                   ? ? ? ms' t name opts Hex Hem Htg Htp Hnc Hno Hq Hqu Ht Hr]; subst.
  - (* skipped *)
    exists [], ms, []. split; [reflexivity|]. split; [assumption|]. split; [|apply adds_none].
    destruct (tag_parts_exist (gf_tag f)) as (name & opts & Htp). destruct (HA _ _ Htp) as (Hsp & Hda & Hcase).
    assert (Hdash : gf_tag f = bs "-" -> field_call ign f x = Ok []).
    { intros Htg. pose proof Htp as Htp'. rewrite Htg in Htp'. destruct (dash_parts _ _ Htp') as (-> & ->). unfold field_call, parse_anonymous, parse_field, read_anonymous_tag.
      rewrite (read_tag f _ _ _ Htp Hsp). destruct (gf_anon f); [reflexivity|]. destruct (negb _); reflexivity. }
    destruct Hcase as [Htg|[(He & Ha)|[(Ha & Hs & _)|(He & _)]]].
    + auto.
    + unfold field_call, parse_field. rewrite Ha. unfold ro_field. rewrite He, Ha. reflexivity.
    + destruct Hsk as [(Hf & [Hf'|Hf'])|Htg]; [congruence|congruence|auto].
    + destruct Hsk as [(Hf & _)|Htg]; [congruence|auto].
  - (* embedded *)
    destruct (HA _ _ Htp) as (Hsp & Hda & Hcase).
    assert (Hal : alike ign x).
    { destruct Hcase as [Htg'|[(He & Ha)|[(Ha & Hs & _ & [(_ & Hc)|(-> & _)])|(He & Ha & _)]]]; try congruence; try discriminate.
      destruct (Ha Han); congruence. }
    rewrite map_app in Hd. apply NoDup_app_split in Hd as (Hd1 & _).
    destruct (IH (TObj ns) Hal) as (v & Hv & Hsv).
    { destruct x as [ |b|z|z|g|g|l|l|b|y|m| |[g|]|g|gs'|v|v|m|m| ]; try discriminate.
      - destruct g as [ |b|z|z|g|g|l|l|b|y|m| |g|g|gs'|v|v|m|m| ]; try discriminate. injection Hso as ->. apply enc_ptr. now apply enc_struct.
      - injection Hso as ->. now apply enc_struct. }
    destruct v as [ | | |i kvs lo| | | | | ]; try contradiction.
    destruct (range_shows E W i kvs lo ns Hd1 Hsv) as (kcs & Hk & Hadd).
    exists ns, ms', kcs. split; [reflexivity|]. split; [assumption|]. split; [|assumption].
    unfold field_call. rewrite Han. unfold parse_anonymous, read_anonymous_tag. rewrite (read_tag f [] opts _ Htp Hsp).
    rewrite (key_not_dash f [] Hn) by discriminate.
    replace (is_nil_ptr x) with false by (destruct x as [ |b|z|z|g|g|l|l|b|y|m| |[g|]|g|gs'|v|v|m|m| ]; try discriminate; reflexivity).
    rewrite (import_struct_of x gs _ _ Hso) by (unfold ro_field; destruct (gf_exported f), (gf_anon f); discriminate).
    cbn [x_ign]. rewrite Hv. cbn [rbind]. exact Hk.
  - (* embedded nil pointer *)
    exists [], ms, []. split; [reflexivity|]. split; [assumption|]. split; [|apply adds_none].
    destruct (HA _ _ Htp) as (Hsp & Hda & Hcase).
    assert (Hc : ign = false /\ (In (bs "omitempty") opts \/ ~ letter_first (gf_name f))).
    { destruct Hcase as [Htg'|[(He & Ha)|[(Ha & Hs & _ & [(Hc & _)|(_ & Hc)])|(He & Ha & _)]]]; try congruence; try contradiction; try assumption.
      - destruct (Ha Han); congruence. }
    destruct Hc as (-> & Hc). unfold field_call. rewrite Han. unfold parse_anonymous, read_anonymous_tag. rewrite (read_tag f [] opts _ Htp Hsp).
    rewrite (key_not_dash f [] Hn) by discriminate. cbn [is_nil_ptr x_omit x_str x_ign]. unfold should_omit. cbn [x_ign x_omit x_priv negb andb].
    destruct Hc as [Ho|Hl]; [apply existsb_In in Ho; rewrite Ho; reflexivity|]. rewrite (other_private f Hl), orb_true_r. reflexivity.
  - (* omitted *)
    exists [], ms, []. split; [reflexivity|]. split; [assumption|]. split; [|apply adds_none].
    destruct (HA _ _ Htp) as (Hsp & Hda & Hcase).
    assert (Hc : (gf_anon f = true -> gf_struct f = false /\ letter_first (gf_name f) /\ single x) /\ hollow x).
    { destruct Hcase as [Htg'|[(He & Ha)|[(Ha & Hs & -> & _)|(He & Ha & Hc)]]].
      - rewrite Htg' in Htp. destruct (dash_parts _ _ Htp) as (_ & ->). destruct Hom.
      - congruence.
      - destruct Hem as [G|[G|G]]; congruence.
      - split; [assumption|]. destruct Hc as [(_ & _ & Hh)|(_ & Hs & _)]; [assumption|].
        exfalso. exact (not_empty_value x (Hs Hom eq_refl) Hev). }
    destruct Hc as (Ha & Hh).
    rewrite (field_call_value false f x name opts VNil Htp Hsp); auto.
    + intros ->. rewrite (Hda eq_refl) in Hom. destruct Hom.
    + apply existsb_In in Hom. rewrite Hom. now apply import_hollow.
  - (* a field *)
    destruct (HA _ _ Htp) as (Hsp & Hda & Hcase).
    assert (Hc : (gf_anon f = true -> gf_struct f = false /\ letter_first (gf_name f) /\ single x) /\
                 alike ign x /\ (In (bs "omitempty") opts -> ign = false -> not_empty x) /\ (In (bs "string") opts -> quoted_alike x)).
    { destruct Hcase as [Htg'|[(He & Ha)|[(Ha & Hs & -> & _)|(He & Ha & Hc)]]].
      - congruence.
      - congruence.
      - destruct Hem as [G|[G|G]]; congruence.
      - split; [assumption|]. destruct Hc as [(G1 & G2 & (G3 & _))|Hc]; [exfalso; apply Hno; auto|assumption]. }
    destruct Hc as (Ha & Hal & Hne & Hqa). destruct (IH t Hal Ht) as (v & Hv & Hsv).
    exists [(field_key f name, t)], ms', [(field_key f name, v)]. split; [reflexivity|]. split; [assumption|].
    split; [|now apply adds_one].
    rewrite (field_call_value ign f x name opts v Htp Hsp); auto.
    + now rewrite (shows_not_nil t v Hsv).
    + intros ->. rewrite (Hda eq_refl) in Htp. destruct Htp as (Htp & _). exact (Htg Htp).
    + rewrite import_omit; [|assumption|intros G; apply existsb_In in G; now apply Hne].
      destruct (existsb (beqb (bs "string")) opts) eqn:Eo; [|assumption]. apply existsb_In in Eo.
      rewrite import_unquoted; auto.
    + intros Hf. destruct (Ha Hf) as (_ & _ & Hx). pose proof (single_not_object ign x t v Hx Ht Hsv) as G. destruct v; auto.
  - (* a quoted field *)
    destruct (HA _ _ Htp) as (Hsp & Hda & Hcase).
    assert (Hc : (gf_anon f = true -> gf_struct f = false /\ letter_first (gf_name f) /\ single x) /\
                 alike ign x /\ (In (bs "omitempty") opts -> ign = false -> not_empty x) /\ quoted_alike x).
    { destruct Hcase as [Htg'|[(He & Ha)|[(Ha & Hs & -> & _)|(He & Ha & Hc)]]].
      - congruence.
      - congruence.
      - destruct Hem as [G|[G|G]]; congruence.
      - split; [assumption|]. destruct Hc as [(G1 & G2 & (G3 & _))|(G1 & G2 & G3)]; [exfalso; apply Hno; auto|auto]. }
    destruct Hc as (Ha & Hal & Hne & Hqa).
    assert (Hi : exists s, imp x RNone (Ext false true false ign) = Ok (VStr s) /\ quoted_text E t s).
    { destruct x as [ |b|z|z|g|g|l|l|b|y|m| |[g|]|g|gs'|v|v|m|m| ]; try contradiction; try (apply import_quoted; [assumption|exact I|assumption]).
      inversion Ht; subst; clear Ht. destruct g; try contradiction; match goal with G : enc _ ?g' t |- _ => exact (import_quoted ign g' t HE I G) end. }
    destruct Hi as (s & Hs & Hqt).
    exists [(field_key f name, TQuoted t)], ms', [(field_key f name, VStr s)]. split; [reflexivity|]. split; [assumption|].
    split; [|now apply adds_one].
    rewrite (field_call_value ign f x name opts (VStr s) Htp Hsp); auto.
    + intros ->. rewrite (Hda eq_refl) in Htp. destruct Htp as (Htp & _). exact (Htg Htp).
    + rewrite import_omit; [|assumption|intros G; apply existsb_In in G; now apply Hne].
      apply existsb_In in Hq. now rewrite Hq.
Qed.

(** *** All values *)

Lemma set_entries_ok : forall l kcs acc, Forall2 (fun (x : bytes * res V) (kc : bytes * V) => fst x = fst kc /\ snd x = Ok (snd kc)) l kcs ->
  set_entries E acc l = set_all E acc kcs.
Proof.
  intros l kcs acc H. revert acc. induction H as [|[k x] [k' c] l kcs (H1 & H2) _ IH]; intros acc; [reflexivity|].
  cbn [fst snd] in *. subst. cbn [set_entries set_all rbind]. destruct (must_op _); cbn [rbind]; auto.
Qed.

Lemma key_text_string k : key_string_of k = key_text k.
Proof. destruct k; reflexivity. Qed.

Lemma shows_new : shows_tree E (TObj []) new_object.
Proof. apply shows_obj. split; [constructor|]. split; [reflexivity|constructor]. Qed.

Lemma import_fields ign fs : fmt_ok ->
  Forall (fun e : gfield * gov => forall t, alike ign (snd e) -> enc ign (snd e) t ->
      exists v, imp (snd e) RNone (Ext false false false ign) = Ok v /\ shows_tree E t v) fs ->
  Forall (fun e : gfield * gov => field_alike ign (fst e) (snd e) (alike ign (snd e))) fs ->
  forall ms0 ms i kvs lo, enc_fields ign fs ms -> NoDup (map fst (ms0 ++ ms)) -> shows_tree E (TObj ms0) (VObj i kvs lo) ->
  exists v, set_fields E (VObj i kvs lo) (map (fun e : gfield * gov => field_call ign (fst e) (snd e)) fs) = Ok v /\
            shows_tree E (TObj (ms0 ++ ms)) v.
Proof.
  intros HE HI HA. induction fs as [|[f x] fs IH]; intros ms0 ms i kvs lo He Hn Hs.
  - inversion He; subst. rewrite app_nil_r. eexists. split; [reflexivity|assumption].
  - inversion HI as [|? ? HI1 HI2]; subst. inversion HA as [|? ? HA1 HA2]; subst. cbn [fst snd] in *.
    destruct (field_adds ign f x fs ms HE HI1 HA1 He) as (ds & ms' & kcs & -> & He' & Hc & Had).
    { rewrite map_app in Hn. now apply NoDup_app_split in Hn as (_ & Hn & _). }
    rewrite app_assoc in Hn.
    destruct (set_all_shows E ms0 ds kcs i kvs lo Hs Had) as (i' & kvs' & lo' & Hs1 & Hs2).
    { rewrite map_app in Hn. now apply NoDup_app_split in Hn as (Hn & _). }
    cbn [map set_fields fst snd]. rewrite Hc. cbn [rbind]. rewrite Hs1. cbn [rbind].
    rewrite app_assoc. now apply IH.
Qed.

Lemma import_list ign l ts : Forall (fun g => forall t, alike ign g -> enc ign g t ->
      exists v, imp g RNone (Ext false false false ign) = Ok v /\ shows_tree E t v) l ->
  Forall (alike ign) l -> Forall2 (enc ign) l ts ->
  exists v, append_all E W new_array (map (fun x => imp x RNone (Ext false false false ign)) l) = Ok v /\ shows_tree E (TArr ts) v.
Proof.
  intros HI HA HF.
  enough (G : exists cs, Forall2 (fun x c => x = Ok c) (map (fun x => imp x RNone (Ext false false false ign)) l) cs /\ Forall2 (shows_tree E) ts cs).
  { destruct G as (cs & G1 & G2). exists (VArr cs). split; [exact (append_all_ok E W _ _ [] G1)|now apply shows_arr]. }
  induction HF as [|g t l ts Hg _ IH]; [exists []; split; constructor|].
  inversion HI as [|? ? HI1 HI2]; subst. inversion HA as [|? ? HA1 HA2]; subst.
  destruct (IH HI2 HA2) as (cs & C1 & C2). destruct (HI1 t HA1 Hg) as (v & V1 & V2).
  exists (v :: cs). split; constructor; assumption.
Qed.

Theorem import_val_alike : fmt_ok -> forall g ign t, alike ign g -> enc ign g t ->
  exists v, imp g RNone (Ext false false false ign) = Ok v /\ shows_tree E t v.
Proof.
  intros HE g ign. assert (Ho : should_omit (Ext false false false ign) = false) by (unfold should_omit; cbn; apply andb_false_r).
  induction g as [ |b|z|z|f|f|l IH| |l IH|b|x| |m IH| | |g IH|g IH|fs IH|v|v|m|m| ] using gov_ind'; intros t Ha Ht.
  - inversion Ht; subst. cbn [import_val]. unfold omit_or. rewrite Ho. eexists. split; [reflexivity|exact I].
  - inversion Ht; subst. cbn [import_val]. unfold parse_bool, omit_or. rewrite Ho, andb_false_r. eexists. split; reflexivity.
  - inversion Ht; subst. cbn [import_val]. unfold parse_int, omit_or. rewrite Ho, andb_false_r. eexists. split; [reflexivity|].
    now apply int_shown.
  - inversion Ht; subst. cbn [import_val]. unfold parse_uint, omit_or. rewrite Ho, andb_false_r. eexists. split; [reflexivity|].
    now apply uint_shown.
  - inversion Ht as [ | | | |? Hf| | | | | | | | | | | | | | | | | | | ]; subst. cbn [import_val]. unfold parse_float. rewrite Ho, andb_false_r. eexists. split; [reflexivity|].
    destruct (float64_shown f Hf) as (n & src & -> & H). exact H.
  - inversion Ht as [ | | | | |? Hf| | | | | | | | | | | | | | | | | | ]; subst. cbn [import_val]. unfold parse_float. rewrite Ho, andb_false_r. eexists. split; [reflexivity|].
    destruct (float32_shown f Hf) as (n & src & -> & H). exact H.
  - inversion Ht as [ | | | | | |? ? HF| | | | | | | | | | | | | | | | | ]; subst. apply import_list; [assumption|now apply alike_list|assumption].
  - destruct Ha.
  - inversion Ht as [ | | | | | | | |? ? HF| | | | | | | | | | | | | | | ]; subst. destruct l as [|x l].
    + inversion HF; subst. cbn [import_val]. unfold omit_or. rewrite Ho. eexists. split; [reflexivity|exact I].
    + apply (import_list ign (x :: l) ts IH); [now apply alike_list|assumption].
  - destruct b as [b|]; [|destruct Ha]. inversion Ht as [ | | | | | | | | | |? ? Hb| | | | | | | | | | | | | ]; subst. cbn [import_val interface can_interface]. unfold omit_or. rewrite Ho, andb_false_r.
    eexists. split; [reflexivity|]. cbn. apply (encoding_unique _ _ b); [assumption|]. now apply encode_text.
  - inversion Ht; subst. cbn [import_val]. unfold omit_or. rewrite Ho, andb_false_r. eexists. split; [reflexivity|reflexivity].
  - inversion Ht; subst. cbn [import_val]. unfold omit_or. rewrite Ho. eexists. split; [reflexivity|exact I].
  - inversion Ht as [ | | | | | | | | | | | | |? ? HF Hn| | | | | | | | | | ]; subst.
    assert (G : exists kcs, Forall2 (fun (x : bytes * res V) (kc : bytes * V) => fst x = fst kc /\ snd x = Ok (snd kc))
                  (map (fun e : gkey * gov => let '(k, x) := e in (key_string_of k, imp x RNone (Ext false false false ign))) m) kcs /\
                Forall2 (fun (kc : bytes * V) m => fst kc = fst m /\ shows_tree E (snd m) (snd kc)) kcs ms).
    { change (alike ign (GMap (Some m))) with ((fix go (m : list (gkey * gov)) : Prop := match m with [] => True | (_, x) :: r => alike ign x /\ go r end) m) in Ha.
      apply alike_map in Ha. clear Ht Hn. revert IH Ha. induction HF as [|[k x] [k' t] m ms (Hk & Hx) _ IHF]; intros HI HA; [exists []; split; constructor|].
      inversion HI as [|? ? HI1 HI2]; subst. inversion HA as [|? ? HA1 HA2]; subst. cbn [fst snd] in *.
      destruct (IHF HI2 HA2) as (kcs & C1 & C2). destruct (HI1 t HA1 Hx) as (v & V1 & V2).
      exists ((k', v) :: kcs). subst k'. split; constructor; try assumption; [|split; [reflexivity|exact V2]].
      split; [apply key_text_string|exact V1]. }
    destruct G as (kcs & G1 & G2).
    destruct (set_all_shows E [] ms kcs 0 [] None shows_new) as (i' & kvs' & lo' & Hs1 & Hs2).
    { exists kcs. split; [apply Permutation_refl|assumption]. }
    { assumption. }
    destruct m as [|e m].
    + inversion HF; subst. cbn [import_val]. unfold omit_or. rewrite Ho. eexists. split; [reflexivity|exact shows_new].
    + exists (VObj i' kvs' lo'). split; [|exact Hs2]. cbn [import_val]. change (ro_inside RNone) with RNone.
      rewrite (set_entries_ok _ _ _ G1). exact Hs1.
  - inversion Ht.
  - inversion Ht; subst. cbn [import_val]. unfold omit_or. rewrite Ho. eexists. split; [reflexivity|exact I].
  - inversion Ht as [ | | | | | | | | | | | | | | |? ? Hg| | | | | | | | ]; subst.
    destruct g; try (apply IH; assumption). destruct Ha.
  - inversion Ht as [ | | | | | | | | | | | | | | | |? ? Hg| | | | | | | ]; subst. apply IH; assumption.
  - inversion Ht as [ | | | | | | | | | | | | | | | | |? ? HF Hn| | | | | | ]; subst. apply alike_fields in Ha.
    destruct (import_fields ign fs HE IH Ha [] ms 0 [] None HF Hn shows_new) as (v & H1 & H2). exists v. split; [|exact H2].
    rewrite <- H1. cbn [import_val]. unfold new_object. f_equal. apply map_ext. intros [f x]. reflexivity.
  - inversion Ht as [ | | | | | | | | | | | | | | | | | | |? Hv| | | | ]; subst; [destruct Ha|].
    exists (deep_copy v). cbn [import_val interface can_interface]. split; [destruct v; try reflexivity; congruence|]. now apply copy_same.
  - inversion Ht.
  - inversion Ht as [ | | | | | | | | | | | | | | | | | | | |? Hm|b j Hd| | ]; subst; [destruct Hm as [->| ->]; destruct Ha|].
    destruct (unmarshal_complete E b j Hd (Ha j Hd)) as (v & Hu & _ & Hv). exists v. cbn [import_val interface can_interface parse_json_marshaler rbind].
    rewrite Hu. cbn [rbind]. unfold omit_or. rewrite Ho, andb_false_r. split; [reflexivity|]. exact Hv.
  - inversion Ht as [ | | | | | | | | | | | | | | | | | | | | | |? Hm|b]; subst.
    + destruct Hm as [->| ->]; [destruct Ha|]. eexists. split; [reflexivity|exact I].
    + cbn [import_val interface can_interface parse_text_marshaler rbind]. unfold omit_or. rewrite Ho, andb_false_r. eexists. split; reflexivity.
  - inversion Ht.
Qed.

Theorem import_alike : fmt_ok -> forall opts g t,
  alike (o_ignore_omitempty (combine_options d opts)) g -> enc (o_ignore_omitempty (combine_options d opts)) g t ->
  exists v, import E W d opts g = Ok (v, None) /\ shows_tree E t v.
Proof.
  intros HE opts g t Ha Ht. destruct (import_val_alike HE g _ t Ha Ht) as (v & H1 & H2). exists v. unfold import. rewrite H1. auto.
Qed.
End Import.
