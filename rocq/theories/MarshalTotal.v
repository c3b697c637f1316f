(** Marshal panics on nil, and on nothing else. *)
From Verif Require Import Base Float64 Value Opt Marshal SpecNil SpecJson SpecValue ListLemmas ValueLemmas SortProof MarshalProof.

Section Total.
Variable E : Env.
Variable W : World.
Variable o : opt.

Let run_ok (v : V) (run : option pinfo -> list key -> nat -> mres) : Prop :=
  forall pi path cnt, (~ nil_at v /\ exists r, run pi path cnt = Ok r) \/ (nil_at v /\ run pi path cnt = Panic).

Lemma write_members_total : forall es, Forall (fun e => run_ok (e_val e) (e_run e)) es -> forall pi path cnt first,
  (Forall (fun e => ~ nil_at (e_val e)) es /\ exists b, write_members o pi path cnt first es = Ok b) \/
  (Exists (fun e => nil_at (e_val e)) es /\ write_members o pi path cnt first es = Panic).
Proof.
  induction es as [|e es IH]; intros H pi path cnt first.
  - left. split; [constructor|]. exists []. reflexivity.
  - inversion H as [|? ? He Hes]; subst. specialize (IH Hes).
    cbn [write_members]. destruct (e_val e) eqn:Ev.
    all: try (right; split; [apply Exists_cons_hd; rewrite Ev; constructor|reflexivity]; fail).
    all: rewrite <- Ev in *.
    all: assert (G : forall pi' path' first' (k : bytes -> bytes -> bytes), (Forall (fun e => ~ nil_at (e_val e)) (e :: es) /\
           exists b, (let* (b, _) := e_run e pi' path' cnt in let* rest := write_members o pi path cnt first' es in Ok (k b rest)) = Ok b) \/
          (Exists (fun e => nil_at (e_val e)) (e :: es) /\
           (let* (b, _) := e_run e pi' path' cnt in let* rest := write_members o pi path cnt first' es in Ok (k b rest)) = Panic))
      by (intros pi' path' first' k; destruct (He pi' path' cnt) as [(Hn & [bb xx] & ->)|(Hn & ->)]; cbn [rbind];
          [|right; split; [now apply Exists_cons_hd|reflexivity]];
          destruct (IH pi path cnt first') as [(Hf & r & ->)|(Hf & ->)]; cbn [rbind];
          [left; split; [constructor; assumption|eauto]|right; split; [now apply Exists_cons_tl|reflexivity]]).
    all: try exact (G _ _ false (fun b rest => (if first then [] else [44]) ++ nl_indent o cnt ++ quoted (o_esc o) (e_key e)
            ++ (if o_indent o then [58; 32] else [58]) ++ b ++ rest)).
    destruct (o_omit_null o).
    + destruct (IH pi path cnt true) as [(Hf & r & ->)|(Hf & ->)]; [left|right]; (split; [|eauto]).
      * constructor; [rewrite Ev; inversion 1|assumption].
      * now apply Exists_cons_tl.
    + exact (G _ _ false (fun b rest => (if first then [] else [44]) ++ nl_indent o cnt ++ quoted (o_esc o) (e_key e)
            ++ (if o_indent o then [58; 32] else [58]) ++ b ++ rest)).
Qed.

Lemma write_elems_total v : forall l, Forall (fun x => run_ok x (marshal_to E W o x)) l -> forall pi path cnt i,
  (Forall (fun x => ~ nil_at x) l /\ exists b, write_elems o v pi path cnt i (map (marshal_to E W o) l) = Ok b) \/
  (Exists nil_at l /\ write_elems o v pi path cnt i (map (marshal_to E W o) l) = Panic).
Proof.
  induction l as [|x l IH]; intros H pi path cnt i.
  - left. split; [constructor|]. exists []. reflexivity.
  - inversion H as [|? ? Hx Hl]; subst. specialize (IH Hl pi path cnt (i + 1)). cbn [map write_elems].
    match goal with |- context [marshal_to E W o x ?p ?q ?c] => destruct (Hx p q c) as [(Hn & [b y] & ->)|(Hn & ->)]; cbn [rbind] end;
      [|right; split; [now apply Exists_cons_hd|reflexivity]].
    destruct IH as [(Hf & r & ->)|(Hf & ->)]; cbn [rbind]; [left; split; [constructor; assumption|eauto]|right; split; [now apply Exists_cons_tl|reflexivity]].
Qed.

Lemma marshal_to_total v : run_ok v (marshal_to E W o v).
Proof.
  induction v as [ |s|n src|i kvs lo IH|l IH|b| | | ] using V_ind'; intros pi path cnt.
  - left. split; [inversion 1|eexists; reflexivity].
  - left. split; [inversion 1|eexists; reflexivity].
  - left. split; [inversion 1|]. cbn [marshal_to]. unfold marshal_number, marshal_infp, marshal_infn, marshal_nan, mok, merr.
    destruct src; [|eauto]. repeat match goal with |- exists r, (if ?c then _ else _) = _ => destruct c; eauto | |- exists r, (match ?c with _ => _ end) = _ => destruct c; eauto end.
  - cbn [marshal_to]. set (es := map _ kvs).
    assert (Hes : es = [] <-> kvs = []) by (subst es; destruct kvs; cbn; split; congruence).
    pose proof (write_members_total (order_entries W o pi path es)) as T.
    assert (Hp : Permutation (order_entries W o pi path es) es) by apply order_entries_perm.
    assert (Hr : Forall (fun e => run_ok (e_val e) (e_run e)) (order_entries W o pi path es)).
    { apply (Permutation_Forall (Permutation_sym Hp)). subst es. clear -IH. induction IH; cbn; constructor; assumption. }
    destruct es as [|e r] eqn:Ee.
    { left. rewrite (proj1 Hes eq_refl). split; [|eexists; reflexivity]. inversion 1; subst. contradiction. }
    rewrite <- Ee in *. destruct (T Hr pi path (S cnt) true) as [(Hf & b & ->)|(Hf & ->)]; cbn [rbind].
    + left. split; [|eexists; reflexivity]. apply (Permutation_Forall Hp) in Hf. intros Hn. inversion Hn as [| |? ? ? k id x Hi Hx]; subst.
      rewrite Forall_forall in Hf. apply (Hf (Entry k id x (marshal_to E W o x))); [|assumption].
      subst es. apply in_map_iff. exists (k, (id, x)). split; [reflexivity|assumption].
    + right. split; [|reflexivity]. apply Exists_exists in Hf as (e' & Hi & Hn). apply (Permutation_in _ Hp) in Hi.
      subst es. apply in_map_iff in Hi as ([k [id x]] & <- & Hi). exact (nil_member i kvs lo k id x Hi Hn).
  - cbn [marshal_to]. destruct l as [|x l]; [left; split; [inversion 1; subst; contradiction|eexists; reflexivity]|].
    destruct (write_elems_total (VArr (x :: l)) (x :: l) IH pi path (S cnt) 0) as [(Hf & b & ->)|(Hf & ->)]; cbn [rbind].
    + left. split; [|eexists; reflexivity]. intros Hn. inversion Hn as [|? y Hi Hx|]; subst. rewrite Forall_forall in Hf. exact (Hf y Hi Hx).
    + right. split; [|reflexivity]. apply Exists_exists in Hf as (y & Hi & Hn). exact (nil_element _ y Hi Hn).
  - left. split; [inversion 1|eexists; reflexivity].
  - left. split; [inversion 1|eexists; reflexivity].
  - left. split; [inversion 1|eexists; reflexivity].
  - right. split; [constructor|reflexivity].
Qed.

End Total.

Lemma typed_not_nil v : json_typed v -> ~ nil_at v.
Proof.
  induction v as [ |s|n src|i kvs lo IH|l IH|b| | | ] using V_ind'; intros Hj Hn; try (inversion Hn; fail); try contradiction.
  - apply json_typed_obj in Hj as (_ & Hj). inversion Hn as [| |? ? ? k id x Hi Hx]; subst. rewrite Forall_forall in *.
    exact (IH _ Hi (Hj _ Hi) Hx).
  - apply json_typed_arr in Hj. inversion Hn as [|? x Hi Hx|]; subst. rewrite Forall_forall in *. exact (IH _ Hi (Hj _ Hi) Hx).
Qed.

Theorem marshal_total E W d opts v :
  (~ nil_at v -> (exists b, marshal E W d opts v = Ok b) \/ (exists e, marshal E W d opts v = Err e)) /\
  (nil_at v -> marshal E W d opts v = Panic) /\
  (~ nil_at v -> exists b, must_marshal E W d opts v = Ok b).
Proof.
  assert (G : (~ nil_at v /\ ((exists b, marshal E W d opts v = Ok b) \/ (exists e, marshal E W d opts v = Err e))) \/ (nil_at v /\ marshal E W d opts v = Panic)).
  { unfold marshal, marshal_opt. destruct v.
    1: left; split; [inversion 1|right; eexists; reflexivity].
    all: match goal with |- (~ nil_at ?v /\ _) \/ _ => destruct (marshal_to_total E W (combine_options d opts) v None [] 0) as [(Hn & [bb e] & He)|(Hn & He)] end.
    all: try (right; split; [assumption|]; rewrite He; reflexivity).
    all: try (left; split; [assumption|]; rewrite He; cbn [rbind]; destruct e; eauto).
    all: try (right; split; [assumption|reflexivity]; fail). exfalso. apply Hn. constructor. }
  unfold must_marshal. destruct G as [(Hn & H)|(Hn & H)].
  - split; [auto|]. split; [contradiction|]. intros _. destruct H as [(b & ->)|(e & ->)]; eauto.
  - split; [contradiction|]. split; [auto|]. contradiction.
Qed.
