(** Instances for fields that compete for a name. *)
From Verif Require Import Base Utf8 Float64 Value Scan Unmarshal Opt Marshal GoValue Import SpecJson SpecValue SpecImport SpecParts SpecCompete
  ListLemmas ImportProof PartsProof PartsMore ExampleWorld ExampleImport ExampleParts CompeteProof.
Local Open Scope Z_scope.

(** struct { ID int; Base }, where Base has an ID of its own. *)
Definition base (z : Z) : gfield * gov := (emb "Base" "" true, GStruct [(fld "ID" "", GInt z)]).
Definition own_first : list (gfield * gov) := [(fld "ID" "", GInt 1); base 2].
Definition own_last : list (gfield * gov) := [base 2; (fld "ID" "", GInt 1)].
(** struct { Base; Other } with an ID in both. *)
Definition twice : list (gfield * gov) := [base 2; (emb "Other" "" true, GStruct [(fld "ID" "", GInt 3)])].
Definition cid (n : nat) (z : Z) : cand := mkCand n false (bs "ID") (fld "ID" "") (GInt z).

Lemma promoted_id n z fs cs : promoted n fs cs -> promoted n ((fld "ID" "", GInt z) :: fs) (cid n z :: cs).
Proof.
  intros H. apply (pr_field n (fld "ID" "") (GInt z) fs cs [] []); auto.
  - now apply (parts "" "" []).
  - intros e Hi. split; intros r Er; repeat (destruct Hi as [<-|Hi]; [destruct r; discriminate|]); destruct Hi.
  - discriminate.
Qed.
Lemma promoted_base n name z fs cs : bs name <> bs "-" -> promoted n fs cs ->
  promoted n ((emb name "" true, GStruct [(fld "ID" "", GInt z)]) :: fs) (cid (S n) z :: cs).
Proof.
  intros Hn H. apply (pr_embedded n (emb name "" true) _ [(fld "ID" "", GInt z)] fs [cid (S n) z] cs []); auto.
  - now apply (parts "" "" []).
  - apply promoted_id. constructor.
Qed.

Section Here.
Variables (E : Env) (W : World).
Lemma cid_gives n z x : gives E W opt0 [] (cid n z) x <-> x = new_int64 z.
Proof.
  assert (M : forall y, member (VObj 1 [(bs "ID", (1, new_int64 z))] None) (bs "ID") y <-> y = new_int64 z).
  { intros y. split.
    - intros (i & kvs & lo & id & [= <- <- <-] & [[= _ <-]|[]]). reflexivity.
    - intros ->. exists 1, [(bs "ID", (1, new_int64 z))], None, 1. split; [reflexivity|now left]. }
  unfold gives. cbn [cid c_field c_data c_key].
  assert (I : import E W opt0 [] (GStruct [(fld "ID" "", GInt z)]) = Ok (VObj 1 [(bs "ID", (1, new_int64 z))] None, None)).
  { unfold import. cbn -[new_int64]. rewrite andb_false_r. reflexivity. }
  split.
  - intros (w & Hw & Hx). rewrite I in Hw. injection Hw as <-. now apply M in Hx.
  - intros ->. exists (VObj 1 [(bs "ID", (1, new_int64 z))] None). split; [exact I|]. now apply M.
Qed.

Lemma int_differ : new_int64 1 <> new_int64 2 /\ new_int64 2 <> new_int64 3.
Proof. split; discriminate. Qed.

Lemma shadowed : exists fs cs c x v, promoted 0 fs cs /\ dominant cs (bs "ID") c /\ gives E W opt0 [] c x /\
  import E W opt0 [] (GStruct fs) = Ok (v, None) /\ ~ member v (bs "ID") x /\ exists y, member v (bs "ID") y.
Proof.
  exists own_first, [cid 0 1; cid 1 2], (cid 0 1), (new_int64 1), (VObj 2 [(bs "ID", (2, new_int64 2))] None).
  split; [apply promoted_id, promoted_base; [discriminate|constructor]|]. split; [|split; [|split; [|split]]].
  - exists [], [cid 1 2]. split; [reflexivity|]. split; [reflexivity|]. intros c' [<-|[]] _. left. cbn. lia.
  - now apply cid_gives.
  - unfold import. cbn -[go_sort go_range]. rewrite ?range_one, ?sort_one. reflexivity.
  - intros (i & kvs & lo & id & [= <- <- <-] & [[= _ H]|[]]).
  - exists (new_int64 2), 2, [(bs "ID", (2, new_int64 2))], None, 2. split; [reflexivity|now left].
Qed.

Lemma ambiguous : exists fs cs x v, promoted 0 fs cs /\ (forall c, ~ dominant cs (bs "ID") c) /\
  import E W opt0 [] (GStruct fs) = Ok (v, None) /\ member v (bs "ID") x.
Proof.
  exists twice, [cid 1 2; cid 1 3], (new_int64 3), (VObj 2 [(bs "ID", (2, new_int64 3))] None).
  split; [apply promoted_base; [discriminate|]; apply promoted_base; [discriminate|constructor]|]. split; [|split].
  - intros c ([|c0 [|c1 [|]]] & post & Eq & _ & D); cbn in Eq; try discriminate.
    + injection Eq as <- <-. destruct (D (cid 1 3)) as [H|(_ & H & _)]; [now left|reflexivity|cbn in H; lia|discriminate].
    + injection Eq as <- <- <-. destruct (D (cid 1 2)) as [H|(_ & H & _)]; [now left|reflexivity|cbn in H; lia|discriminate].
  - unfold import. cbn -[go_sort go_range]. rewrite ?range_one, ?sort_one. reflexivity.
  - exists 2, [(bs "ID", (2, new_int64 3))], None, 2. split; [reflexivity|now left].
Qed.

Lemma own_last_fits : promoted 0 own_last [cid 1 2; cid 0 1] /\ Forall (fun c => exists x, gives E W opt0 [] c x) [cid 1 2; cid 0 1] /\
  told_apart E W opt0 [] [cid 1 2; cid 0 1] /\ last_dominant [cid 1 2; cid 0 1] /\
  exists v, import E W opt0 [] (GStruct own_last) = Ok (v, None).
Proof.
  split; [apply promoted_base; [discriminate|]; apply promoted_id; constructor|]. split; [|split; [|split]].
  - repeat constructor; eexists; now apply cid_gives.
  - intros pre c mid c' post x x' Eq _ Hx Hx'. destruct pre as [|c0 [|c1 pre]]; cbn in Eq; try discriminate.
    + injection Eq as <- Eq. destruct mid as [|m [|]]; cbn in Eq; try discriminate. injection Eq as <- <-. apply cid_gives in Hx as ->, Hx' as ->. discriminate.
    + injection Eq as <- <- Eq. destruct mid; discriminate.
    + destruct pre; discriminate.
  - intros pre c post Eq Hp. destruct pre as [|c0 [|c1 pre]]; cbn in Eq.
    + injection Eq as <- <-. exfalso. now apply (Hp (cid 0 1)); [left|].
    + injection Eq as <- <- <-. intros c' [<-|[]] _. left. cbn. lia.
    + destruct pre; discriminate.
  - eexists. unfold import. cbn -[go_sort go_range]. rewrite ?range_one, ?sort_one. reflexivity.
Qed.
End Here.
