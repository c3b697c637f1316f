(** C74: how long the output of Marshal gets. *)
From Verif Require Import Base Utf8 Float64 Value Opt Scan Unmarshal Pure ListLemmas ValueLemmas Marshal SortProof
  SpecJson SpecValue SpecLax SpecSize UnmarshalProof ParseComplete LaxNum LaxParse LitExact RoundTrip StackProof ExampleWorld.

Notation len := List.length.

(** *** Escaping *)
Lemma esc_ascii_length esc b : (len (esc_ascii esc b) <= 6)%nat.
Proof.
  unfold esc_ascii, esc_control.
  repeat match goal with |- context [if ?c then _ else _] => destruct c end; cbn; lia.
Qed.
Lemma esc_rune_length esc r : (len (esc_rune esc r) <= if (r <=? 65535)%Z then 6 else 12)%nat.
Proof.
  unfold esc_rune. destruct (Z.leb_spec r 127).
  { pose proof (esc_ascii_length esc r). destruct (r <=? 65535); lia. }
  assert (H16 : (len (esc_utf16 r) <= if (r <=? 65535)%Z then 6 else 12)%nat).
  { unfold esc_utf16. destruct (r <=? 65535); cbn; lia. }
  unfold esc_unicode, esc_utf8, encode_rune. destruct (esc_has esc escapeUTF8); [|exact H16].
  destruct ((r =? 8232) || (r =? 8233)); [exact H16|].
  repeat match goal with |- context [if ?c then _ else _] => destruct c end; cbn; lia.
Qed.
(** A code point above U+FFFF is read from four bytes. *)
Lemma decode_width b s : let (c, n) := decode_rune (b :: s) in
  (1 <= n <= S (len s))%nat /\ (65535 < c -> (2 <= n)%nat).
Proof.
  unfold decode_rune, runeError, is_cont. cbn [len].
  destruct (Z.ltb_spec b 128); [split; [lia|lia]|].
  destruct ((194 <=? b) && (b <=? 223)) eqn:E2.
  { destruct s as [|b1 s]; cbn [len]; [lia|]. destruct ((128 <=? b1) && (b1 <=? 191)) eqn:E; [|lia]. lia. }
  destruct ((224 <=? b) && (b <=? 239)) eqn:E3.
  { destruct s as [|b1 [|b2 s]]; cbn [len]; [lia|lia|]. cbv zeta.
    destruct (b =? 224), (b =? 237); cbv iota;
      (match goal with |- context [if ?c then _ else _] => destruct c eqn:?Ec end; [|lia]); lia. }
  destruct ((240 <=? b) && (b <=? 244)); [|lia].
  destruct s as [|b1 [|b2 [|b3 s]]]; cbn [len]; [lia|lia|lia|]. cbv zeta.
  destruct (b =? 240), (b =? 244); cbv iota;
    (match goal with |- context [if ?c then _ else _] => destruct c end; lia).
Qed.
Lemma runes_length esc : forall s skip, (skip <= len s)%nat ->
  (len (flat_map (esc_rune esc) (runes_aux skip s)) <= 6 * (len s - skip))%nat.
Proof.
  induction s as [|b s IH]; intros skip Hs; cbn [runes_aux]; [cbn; lia|].
  destruct skip as [|k].
  - pose proof (decode_width b s) as Hw. destruct (decode_rune (b :: s)) as [c n]. destruct Hw as [Hn Hc].
    cbn [flat_map]. rewrite app_length. pose proof (esc_rune_length esc c) as He.
    specialize (IH (pred n) ltac:(lia)). cbn [len].
    destruct (Z.leb_spec c 65535); [lia|]. specialize (Hc ltac:(lia)). lia.
  - cbn [len] in *. specialize (IH k ltac:(lia)). lia.
Qed.
Lemma quoted_length esc s : (len (quoted esc s) <= 2 + 6 * len s)%nat.
Proof.
  unfold quoted, escape_string, runes. cbn [len]. rewrite app_length. cbn [len].
  pose proof (runes_length esc s 0 ltac:(lia)). lia.
Qed.

(** *** Masses *)
Lemma mass_pos v : spelled v -> (1 <= mass v)%nat.
Proof. destruct v as [|s|n src|i kvs lo|l|b| | |]; cbn; try lia. destruct src; [congruence|]. cbn. lia. Qed.

Lemma spelled_arr l : spelled (VArr l) <-> Forall spelled l.
Proof.
  cbn [spelled]. induction l as [|x l IH]; cbn [fold_right]; [split; constructor|].
  split; [intros [A B]; constructor; tauto|]. intros H. inversion H; subst. tauto.
Qed.
Lemma spelled_obj i kvs lo : spelled (VObj i kvs lo) <-> Forall (fun kx => spelled (snd (snd kx))) kvs.
Proof.
  cbn [spelled]. induction kvs as [|x l IH]; cbn [fold_right]; [split; constructor|].
  split; [intros [A B]; constructor; tauto|]. intros H. inversion H; subst. tauto.
Qed.
Lemma stories_mass v : spelled v -> (stories v < mass v)%nat.
Proof.
  induction v as [|s|n src|i kvs lo IH|l IH|b| | |] using V_ind'; intros Hs;
    try (pose proof (mass_pos _ Hs); cbn [stories] in *; lia).
  - apply spelled_obj in Hs. cbn [stories mass].
    assert (H : (fold_right (fun kx n => Nat.max (stories (snd (snd kx))) n) 0 kvs <=
                 fold_right (fun kx n => List.length (fst kx) + 3 + mass (snd (snd kx)) + n) 0 kvs)%nat); [|lia].
    induction IH as [|x l Hx Hl IHl]; cbn [fold_right]; [lia|]. inversion Hs; subst.
    specialize (IHl ltac:(assumption)). specialize (Hx ltac:(assumption)). lia.
  - apply spelled_arr in Hs. cbn [stories mass].
    assert (H : (fold_right (fun x n => Nat.max (stories x) n) 0 l <= fold_right (fun x n => mass x + n) 0 l)%nat); [|lia].
    induction IH as [|x l Hx Hl IHl]; cbn [fold_right]; [lia|]. inversion Hs; subst.
    specialize (IHl ltac:(assumption)). specialize (Hx ltac:(assumption)). lia.
Qed.

(** *** The writer *)
Section Write.
Variable E : Env.
Variable W : World.
Variable o : opt.
Variable D : nat.

(** What a line break with its indentation can cost at most, and the space behind a colon. *)
Definition brk : nat := if o_indent o then (2 + len (o_prefix o) + D * len (o_indent_str o))%nat else 0%nat.

Lemma nl_length cnt : (cnt <= D)%nat -> (len (nl_indent o cnt) + (if o_indent o then 1 else 0) <= brk)%nat.
Proof.
  intros H. unfold nl_indent, brk, write_indent. destruct (o_indent o); cbn [len]; [|lia].
  rewrite app_length.
  assert (Hc : len (List.concat (repeat (o_indent_str o) cnt)) = (cnt * len (o_indent_str o))%nat).
  { clear H. induction cnt as [|n IH]; cbn [repeat List.concat]; [reflexivity|]. rewrite app_length, IH. lia. }
  rewrite Hc. nia.
Qed.

Definition short (v : V) (run : option pinfo -> list key -> nat -> mres) : Prop :=
  forall pi path cnt b e, (cnt + stories v <= D)%nat -> run pi path cnt = Ok (b, e) ->
    (len b + 1 <= 6 * mass v + (mass v - 1) * brk)%nat.

Definition member_mass (kx : bytes * (Z * V)) : nat := (len (fst kx) + 3 + mass (snd (snd kx)))%nat.
Definition entry_mass (x : entry) : nat := (len (e_key x) + 3 + mass (e_val x))%nat.
Definition total {A} (f : A -> nat) (l : list A) : nat := fold_right (fun x n => (f x + n)%nat) 0%nat l.
Lemma total_perm {A} (f : A -> nat) l l' : Permutation l l' -> total f l = total f l'.
Proof. induction 1; cbn [total fold_right]; unfold total in *; lia. Qed.

Lemma members_short pi path cnt : forall es first b,
  Forall (fun x => short (e_val x) (e_run x) /\ spelled (e_val x) /\ (cnt + stories (e_val x) <= D)%nat) es ->
  (cnt <= D)%nat ->
  write_members o pi path cnt first es = Ok b -> (len b <= total entry_mass es * (6 + brk))%nat.
Proof.
  induction es as [|x r IH]; intros first b HF Hc H; cbn [write_members] in H; [inversion H; subst; cbn; lia|].
  inversion HF as [|? ? (Hx & Hs & Hd) Hr]; subst. cbn [total fold_right]. fold (total entry_mass r).
  assert (K : forall pi' path' rest b0 e0 first', e_run x pi' path' cnt = Ok (b0, e0) ->
     write_members o pi path cnt first' r = Ok rest ->
     (len ((if first then [] else [44%Z]) ++ nl_indent o cnt ++ quoted (o_esc o) (e_key x)
            ++ (if o_indent o then [58; 32] else [58])%Z ++ b0 ++ rest) <= (entry_mass x + total entry_mass r) * (6 + brk))%nat).
  { intros pi' path' rest b0 e0 first' H1 H2. specialize (IH _ _ Hr Hc H2). specialize (Hx _ _ _ _ _ Hd H1).
    rewrite !app_length. pose proof (quoted_length (o_esc o) (e_key x)). pose proof (nl_length cnt Hc).
    pose proof (mass_pos _ Hs) as Hm.
    assert ((len (if first then [] else [44%Z]) <= 1)%nat) by (destruct first; cbn; lia).
    assert ((len (if o_indent o then [58; 32] else [58])%Z = 1 + if o_indent o then 1 else 0)%nat) by (destruct (o_indent o); reflexivity).
    unfold entry_mass at 1. destruct (mass (e_val x)) as [|m]; [lia|]. nia. }
  destruct (e_val x) eqn:Ev; try discriminate H;
    try (destruct (e_run x _ _ cnt) as [[bb ee]| | |] eqn:Er in H; cbn [rbind] in H; try discriminate H;
         destruct (write_members o pi path cnt false r) as [rest| | |] eqn:Ew; cbn [rbind] in H; try discriminate H;
         inversion H; subst; exact (K _ _ _ _ _ _ Er Ew)).
  destruct (o_omit_null o).
  - specialize (IH _ _ Hr Hc H). nia.
  - destruct (e_run x _ _ cnt) as [[bb ee]| | |] eqn:Er in H; cbn [rbind] in H; try discriminate H;
    destruct (write_members o pi path cnt false r) as [rest| | |] eqn:Ew; cbn [rbind] in H; try discriminate H;
    inversion H; subst; exact (K _ _ _ _ _ _ Er Ew).
Qed.

Lemma elems_short v pi path cnt : forall l i b,
  Forall (fun x => short x (marshal_to E W o x) /\ spelled x /\ (cnt + stories x <= D)%nat) l -> (cnt <= D)%nat ->
  write_elems o v pi path cnt i (map (marshal_to E W o) l) = Ok b -> (len b <= total mass l * (6 + brk))%nat.
Proof.
  induction l as [|x r IH]; intros i b HF Hc H; cbn [map write_elems] in H; [inversion H; subst; cbn; lia|].
  inversion HF as [|? ? (Hx & Hs & Hd) Hr]; subst. cbn [total fold_right]. fold (total mass r).
  destruct (marshal_to E W o x _ _ cnt) as [[b0 e0]| | |] eqn:Er in H; cbn [rbind] in H; try discriminate H.
  destruct (write_elems o v pi path cnt (i + 1) (map (marshal_to E W o) r)) as [rest| | |] eqn:Ew; cbn [rbind] in H; try discriminate H.
  inversion H; subst. specialize (IH _ _ Hr Hc Ew). specialize (Hx _ _ _ _ _ Hd Er).
  rewrite !app_length. pose proof (nl_length cnt Hc). pose proof (mass_pos _ Hs) as Hm.
  assert ((len (if (0 <? i)%Z then [44%Z] else []) <= 1)%nat) by (destruct (0 <? i); cbn; lia).
  destruct (mass x) as [|m]; [lia|]. nia.
Qed.

Lemma writer_short v : spelled v -> short v (marshal_to E W o v).
Proof.
  induction v as [|s|n src|i kvs lo IH|l IH|b0| | |] using V_ind'; intros Hs pi path cnt b e Hd H; cbn [marshal_to] in H.
  - inversion H; subst. cbn. lia.
  - inversion H; subst. pose proof (quoted_length (o_esc o) s). cbn [mass]. nia.
  - unfold marshal_number in H. destruct src as [|c src]; [now destruct Hs|]. inversion H; subst. cbn [mass len]. nia.
  - apply spelled_obj in Hs. cbn [mass stories] in *.
    set (es := map _ kvs) in H.
    assert (HF : Forall (fun x => short (e_val x) (e_run x) /\ spelled (e_val x) /\ (S cnt + stories (e_val x) <= D)%nat) es).
    { subst es. revert Hd. clear H. induction IH as [|x l Hx Hl IHl]; cbn [map fold_right]; intros Hd; constructor.
      - inversion Hs; subst. cbn [e_val e_run]. repeat split; [auto|assumption|lia].
      - inversion Hs; subst. apply IHl; [assumption|lia]. }
    assert (HT : total entry_mass es = fold_right (fun kx n => len (fst kx) + 3 + mass (snd (snd kx)) + n)%nat 0%nat kvs).
    { subst es. clear. induction kvs as [|x l IHl]; cbn [map total fold_right]; [reflexivity|]. unfold total in *. rewrite IHl. reflexivity. }
    rewrite <- HT. clear HT.
    destruct es as [|e0 es'] eqn:Ee; [inversion H; subst; cbn; lia|]. rewrite <- Ee in *. clear Ee.
    destruct (write_members o pi path (S cnt) true (order_entries W o pi path es)) as [bm| | |] eqn:Ew; cbn [rbind] in H; try discriminate H.
    inversion H; subst. pose proof (order_entries_perm W o pi path es) as Hp.
    apply members_short in Ew; [|exact (Permutation_Forall (Permutation_sym Hp) HF)|lia].
    rewrite (total_perm _ _ _ Hp) in Ew. cbn [len]. rewrite !app_length. cbn [len].
    pose proof (nl_length cnt ltac:(lia)). nia.
  - apply spelled_arr in Hs. cbn [mass stories] in *.
    assert (HF : Forall (fun x => short x (marshal_to E W o x) /\ spelled x /\ (S cnt + stories x <= D)%nat) l).
    { revert Hd. clear H. induction IH as [|x l Hx Hl IHl]; cbn [fold_right]; intros Hd; constructor.
      - inversion Hs; subst. repeat split; [auto|assumption|lia].
      - inversion Hs; subst. apply IHl; [assumption|lia]. }
    fold (total mass l).
    destruct l as [|x0 l'] eqn:El; [inversion H; subst; cbn; lia|]. rewrite <- El in *.
    destruct (write_elems o _ pi path (S cnt) 0 (map (marshal_to E W o) l)) as [bm| | |] eqn:Ew in H; cbn [rbind] in H; try discriminate H.
    inversion H; subst b. apply elems_short in Ew; [|exact HF|lia].
    cbn [len]. rewrite !app_length. cbn [len]. pose proof (nl_length cnt ltac:(lia)). nia.
  - inversion H; subst. destruct b0; cbn; lia.
  - inversion H; subst. cbn. lia.
  - inversion H; subst. cbn. lia.
  - discriminate.
Qed.
End Write.

Lemma marshal_short E W o v b D : spelled v -> (stories v <= D)%nat -> marshal_opt E W o v = Ok b ->
  (len b + 1 <= 6 * mass v + (mass v - 1) * brk o D)%nat.
Proof.
  intros Hs HD H. unfold marshal_opt in H.
  assert (H' : exists e, marshal_to E W o v None [] 0 = Ok (b, e)).
  { destruct v; try discriminate H;
      (destruct (marshal_to E W o _ None [] 0) as [[b' [e|]]| | |]; cbn [rbind] in H; try discriminate H; inversion H; subst; eauto). }
  destruct H' as [e H']. exact (writer_short E W o D v Hs None [] 0%nat _ _ HD H').
Qed.

(** Without indentation. *)
Theorem compact_bound : forall (E : Env) (W : World) (o : opt) (v : V) (b : bytes),
  spelled v -> o_indent o = false -> marshal_opt E W o v = Ok b -> (List.length b < 6 * mass v)%nat.
Proof.
  intros E W o v b Hs Hi H. pose proof (marshal_short E W o v b _ Hs (le_n _) H) as K.
  unfold brk in K. rewrite Hi in K. lia.
Qed.

(** With indentation. *)
Theorem indent_bound : forall (E : Env) (W : World) (o : opt) (v : V) (b : bytes),
  spelled v -> marshal_opt E W o v = Ok b ->
  (List.length b < mass v * (8 + List.length (o_prefix o) + stories v * List.length (o_indent_str o)))%nat.
Proof.
  intros E W o v b Hs H. pose proof (marshal_short E W o v b _ Hs (le_n _) H) as K.
  pose proof (mass_pos v Hs). unfold brk in K. destruct (mass v) as [|m]; [lia|]. destruct (o_indent o); nia.
Qed.

(** *** What is read *)
Lemma hex4d_length h cp : hex4d h cp -> len h = 4%nat.
Proof. intros H. inversion H; subst; reflexivity. Qed.
Lemma lstr_length t s : lstr t s -> (len s <= len t)%nat.
Proof.
  induction 1; cbn [len] in *; repeat rewrite app_length; cbn [len]; try lia.
  - apply hex4d_length in H. rewrite H.
    assert ((len (utf8 cp) <= 4)%nat); [|lia].
    unfold utf8. repeat match goal with |- context [if ?c then _ else _] => destruct c end; cbn; lia.
  - apply hex4d_length in H, H1. rewrite H. cbn [len]. rewrite app_length, H1. unfold pair_bytes. cbn [len]. lia.
Qed.

Section Read.
Variable E : Env.
Lemma aset_mass k id x : forall kvs, (total member_mass (aset k (id, x) kvs) <= total member_mass kvs + (len k + 3 + mass x))%nat.
Proof.
  induction kvs as [|[k' e] kvs IH]; cbn [aset total fold_right]; [cbn; lia|].
  destruct (beqb k k') eqn:Ek; cbn [total fold_right] in *; unfold total in *.
  - apply beqb_eq in Ek. subst. unfold member_mass at 1 3. cbn [fst snd]. lia.
  - lia.
Qed.
Lemma put_all_mass l : forall ob, is_obj ob ->
  (mass (put_all E l ob) <= mass ob + total (fun kx => len (fst kx) + 3 + mass (to_V E (snd kx)))%nat l)%nat.
Proof.
  induction l as [|[k x] l IH]; intros ob Ho; cbn [put_all fold_left total fold_right]; [lia|].
  destruct (oput_set E ob k (to_V E x) Ho) as [_ Ho']. specialize (IH _ Ho').
  unfold put_all in IH. cbn [fst snd] in *. etransitivity; [exact IH|].
  assert ((mass (oput E ob k (to_V E x)) <= mass ob + (len k + 3 + mass (to_V E x)))%nat); [|unfold total; lia].
  destruct Ho as (i & kvs & lo & ->). unfold oput, set_to_object. cbn [mass].
  pose proof (aset_mass k (wrap_u32 (i + 1)) (to_V E x) kvs). unfold total, member_mass in H. lia.
Qed.

Lemma new_is_obj : is_obj new_object.
Proof. repeat eexists. Qed.
Lemma read_mass :
  (forall t j, lval t j -> (mass (to_V E j) <= len t)%nat) /\
  (forall t l, lelems t l -> (total (fun j => mass (to_V E j)) l <= len t)%nat) /\
  (forall t l, lmembers t l -> (total (fun kx => len (fst kx) + 3 + mass (to_V E (snd kx)))%nat l <= len t)%nat).
Proof.
  apply lax_mutind.
  - cbn; lia.
  - cbn; lia.
  - cbn; lia.
  - intros lit H. cbn [to_V]. destruct (lax_number E lit H) as [n ->]. cbn [mass]. lia.
  - intros t s H. apply lstr_length in H. cbn [to_V mass len]. rewrite app_length. cbn [len]. lia.
  - intros t l _ IH. cbn [to_V mass len]. rewrite app_length. cbn [len].
    assert (fold_right (fun x n => mass x + n)%nat 0%nat (map (to_V E) l) = total (fun j => mass (to_V E j)) l); [|lia].
    clear. induction l as [|x l IHl]; cbn [map fold_right total]; [reflexivity|]. unfold total in IHl. rewrite IHl. reflexivity.
  - intros t l _ IH. cbn [to_V len]. rewrite app_length. cbn [len].
    pose proof (put_all_mass l new_object new_is_obj) as H. unfold put_all in H. cbn [mass new_object fold_right] in H. lia.
  - intros w _. cbn. lia.
  - intros w t l _ _ IH. rewrite app_length. cbn [len]. lia.
  - intros w t j te l _ _ IHv _ _ IHl. cbn [total fold_right]. rewrite !app_length. unfold total in IHl. lia.
  - intros w _. cbn. lia.
  - intros w t l _ _ IH. rewrite app_length. cbn [len]. lia.
  - intros w1 tk k w2 w3 t j tm l _ Hk _ _ _ IHv _ _ IHl. apply lstr_length in Hk. cbn [total fold_right fst snd].
    repeat (rewrite app_length; cbn [len]). unfold total in IHl. lia.
Qed.

Lemma aset_spelled k id x kvs : Forall (fun kx : bytes * (Z * V) => spelled (snd (snd kx))) kvs -> spelled x ->
  Forall (fun kx => spelled (snd (snd kx))) (aset k (id, x) kvs).
Proof.
  intros H Hx. induction H as [|[k' e] kvs He Hr IH]; cbn [aset]; [now repeat constructor|].
  destruct (beqb k k'); constructor; auto.
Qed.
Lemma read_spelled :
  (forall t j, lval t j -> spelled (to_V E j)) /\
  (forall t l, lelems t l -> Forall (fun j => spelled (to_V E j)) l) /\
  (forall t l, lmembers t l -> Forall (fun kx => spelled (to_V E (snd kx))) l).
Proof.
  apply lax_mutind; try (intros; exact I); try (intros; constructor; assumption); try (intros; assumption).
  - intros lit H. cbn [to_V]. destruct (lax_number E lit H) as [n ->]. cbn [spelled].
    intros ->. inversion H as [ip [] _ _ E0|ip|[] ip fr fd ex e H1 H2 H3 H4 H5 H6 H7 E0]; subst; try discriminate.
    apply app_eq_nil in E0 as [-> E0]. cbn in H6. congruence.
  - intros t l _ IH. cbn [to_V]. apply spelled_arr. apply Forall_map. exact IH.
  - intros t l _ IH. cbn [to_V].
    assert (K : forall ob, is_obj ob -> spelled ob -> spelled (put_all E l ob)).
    { clear -IH. induction IH as [|[k x] l Hx Hl IHl]; intros ob Ho Hs; cbn [put_all fold_left]; [assumption|].
      destruct (oput_set E ob k (to_V E x) Ho) as [_ Ho']. apply IHl; [exact Ho'|]. cbn [fst snd] in *.
      destruct Ho as (i & kvs & lo & ->). unfold oput, set_to_object.
      apply spelled_obj. apply aset_spelled; [|assumption]. now apply spelled_obj in Hs. }
    apply (K new_object new_is_obj). exact I.
Qed.
End Read.

Theorem parsed_mass : forall (E : Env) (b : bytes) (v : V), Forall is_byte b ->
  unmarshal E b = Ok (v, None) -> spelled v /\ (mass v <= List.length b)%nat.
Proof.
  intros E b v Hb H. apply unmarshal_lax in H; [|assumption]. destruct H as (j & (w1 & t & w2 & -> & _ & Hv & _) & ->).
  split; [exact (proj1 (read_spelled E) _ _ Hv)|]. pose proof (proj1 (read_mass E) _ _ Hv).
  rewrite !app_length. lia.
Qed.

Theorem rewrite_bound : forall (E : Env) (W : World) (o : opt) (b : bytes) (v : V) (out : bytes), Forall is_byte b ->
  unmarshal E b = Ok (v, None) -> marshal_opt E W o v = Ok out -> o_indent o = false ->
  (List.length out < 6 * List.length b)%nat.
Proof.
  intros E W o b v out Hb H Hm Hi. destruct (parsed_mass E b v Hb H) as [Hs HM].
  pose proof (compact_bound E W o v out Hs Hi Hm). lia.
Qed.
Theorem rewrite_indent_bound : forall (E : Env) (W : World) (o : opt) (b : bytes) (v : V) (out : bytes), Forall is_byte b ->
  unmarshal E b = Ok (v, None) -> marshal_opt E W o v = Ok out ->
  (List.length out < List.length b * (8 + List.length (o_prefix o) + List.length b * List.length (o_indent_str o)))%nat.
Proof.
  intros E W o b v out Hb H Hm. destruct (parsed_mass E b v Hb H) as [Hs HM].
  pose proof (indent_bound E W o v out Hs Hm) as K. pose proof (stories_mass v Hs) as Hst.
  eapply Nat.lt_le_trans; [exact K|]. apply Nat.mul_le_mono; [exact HM|].
  apply Nat.add_le_mono_l. apply Nat.mul_le_mono_r. lia.
Qed.

(** *** The bounds are met *)
Lemma runes_ascii c n : 0 <= c < 128 -> runes_aux 0 (repeat c n) = repeat c n.
Proof.
  intros H. induction n as [|n IH]; [reflexivity|]. cbn [repeat runes_aux decode_rune].
  replace (c <? 128) with true by lia. cbn [pred]. now rewrite IH.
Qed.
Lemma escape_lt n : len (escape_string (o_esc opt0) (repeat 60 n)) = (6 * n)%nat.
Proof.
  unfold escape_string, runes. rewrite runes_ascii by lia. induction n as [|n IH]; [reflexivity|].
  cbn [repeat flat_map]. rewrite app_length, IH. change (len (esc_rune (o_esc opt0) 60)) with 6%nat. lia.
Qed.
Lemma lt_text n : str_body (repeat 60 n) (repeat 60 n).
Proof.
  induction n as [|n IH]; [constructor|]. cbn [repeat]. change (60 :: repeat 60 n) with (utf8 60 ++ repeat 60 n) at 1 2.
  constructor; [unfold scalar; lia|lia|lia|lia|assumption].
Qed.

Theorem six_met : forall (E : Env) (W : World) (n : nat), exists b j v out,
  json_doc b j /\ List.length b = (n + 2)%nat /\ unmarshal E b = Ok (v, None) /\
  marshal_opt E W opt0 v = Ok out /\ List.length out = (6 * n + 2)%nat.
Proof.
  intros E W n. exists (34 :: repeat 60 n ++ [34]), (JStr (repeat 60 n)), (VStr (repeat 60 n)), (quoted (o_esc opt0) (repeat 60 n)).
  assert (HJ : json_doc (34 :: repeat 60 n ++ [34]) (JStr (repeat 60 n))).
  { exists [], (34 :: repeat 60 n ++ [34]), []. rewrite app_nil_r. repeat split; try constructor. apply lt_text. }
  split; [assumption|]. split; [cbn [len]; rewrite app_length, repeat_length; cbn; lia|].
  split; [|split; [reflexivity|]].
  - apply (unmarshal_of_lax E _ (JStr (repeat 60 n))). apply json_lax; [assumption|exact I].
  - unfold quoted. cbn [len]. rewrite app_length, escape_lt. cbn. lia.
Qed.

Lemma nl_at_least o cnt : o_indent o = true -> (cnt * len (o_indent_str o) <= len (nl_indent o cnt))%nat.
Proof.
  intros H. unfold nl_indent, write_indent. rewrite H. cbn [len]. rewrite app_length.
  assert (Hc : len (List.concat (repeat (o_indent_str o) cnt)) = (cnt * len (o_indent_str o))%nat).
  { clear H. induction cnt as [|n IH]; cbn [repeat List.concat]; [reflexivity|]. rewrite app_length, IH. lia. }
  lia.
Qed.
Lemma nest_written E W o n : o_indent o = true -> forall pi path cnt, exists b,
  marshal_to E W o (to_V E (nest n)) pi path cnt = Ok (b, None) /\
  (n * (n + 1 + 2 * cnt) * len (o_indent_str o) <= 2 * len b)%nat.
Proof.
  intros Hi. induction n as [|n IH]; intros pi path cnt.
  - eexists. split; [reflexivity|]. cbn. lia.
  - cbn [nest to_V map marshal_to write_elems].
    match goal with |- context [marshal_to E W o (to_V E (nest n)) ?p ?q ?r] => destruct (IH p q r) as (b & Hb & HL) end.
    rewrite Hb. cbn [rbind]. eexists. split; [reflexivity|].
    cbn [len]. rewrite !app_length. pose proof (nl_at_least o (S cnt) Hi). cbn [len Z.ltb Z.compare app]. nia.
Qed.
Theorem indent_quadratic : forall (E : Env) (W : World) (o : opt) (n : nat), o_indent o = true -> exists b j v out,
  json_doc b j /\ List.length b = (2 * S n)%nat /\ unmarshal E b = Ok (v, None) /\
  marshal_opt E W o v = Ok out /\ (n * (n + 1) * List.length (o_indent_str o) <= 2 * List.length out)%nat.
Proof.
  intros E W o n Hi. destruct (nest_written E W o n Hi None [] 0%nat) as (out & Ho & HL).
  exists (repeat 91 (S n) ++ repeat 93 (S n)), (nest n), (to_V E (nest n)), out.
  assert (HD : json_doc (repeat 91 (S n) ++ repeat 93 (S n)) (nest n)).
  { exists [], (repeat 91 (S n) ++ repeat 93 (S n)), []. rewrite app_nil_r. repeat split; try constructor. apply nest_text. }
  split; [assumption|]. split; [rewrite app_length, !repeat_length; lia|]. split; [|split].
  - apply (unmarshal_of_lax E _ (nest n)). exists [], (repeat 91 (S n) ++ repeat 93 (S n)), [].
    rewrite app_nil_r. repeat split; try constructor. apply nest_lax.
  - unfold marshal_opt. rewrite Ho. destruct n; reflexivity.
  - rewrite Nat.mul_0_r, Nat.add_0_r in HL. exact HL.
Qed.
(** No factor bounds it. *)
Theorem linear_refuted : forall (E : Env) (W : World) (o : opt) (c : nat), o_indent o = true -> o_indent_str o <> [] ->
  exists b j v out, json_doc b j /\ unmarshal E b = Ok (v, None) /\ marshal_opt E W o v = Ok out /\
  (c * List.length b < List.length out)%nat.
Proof.
  intros E W o c Hi Hn. destruct (indent_quadratic E W o (4 * c + 4)%nat Hi) as (b & j & v & out & H1 & H2 & H3 & H4 & H5).
  exists b, j, v, out. repeat split; try assumption. destruct (o_indent_str o) as [|x r]; [congruence|]. cbn [len] in H5. nia.
Qed.
