(** C76: proofs. *)
From Verif Require Import Base Float64 Value Scan Unmarshal Access Names SpecNames.

Theorem error_texts e f t : error_text e = Some t -> error_text f = Some t -> e = f.
Proof. destruct e; intros H; try discriminate H; injection H as <-; destruct f; intros H; try discriminate H; reflexivity. Qed.
Theorem error_named e : error_text e = None <-> e = EOther.
Proof. destruct e; split; intros H; try discriminate H; reflexivity. Qed.

Theorem type_names t : exists s, type_string (type_number t) = Ok s /\ (forall u, rfc_name t = Some u -> s = u).
Proof. destruct t; eexists; (split; [reflexivity|]); cbn; intros u H; congruence. Qed.
Theorem type_names_distinct t u s : type_string (type_number t) = Ok s -> type_string (type_number u) = Ok s -> t = u.
Proof. destruct t; intros H; injection H as <-; destruct u; intros H; try discriminate H; reflexivity. Qed.
Lemma in_table z : 0 <= z <= 7 -> exists t, z = type_number t.
Proof.
  intros H. assert (C : z = 0 \/ z = 1 \/ z = 2 \/ z = 3 \/ z = 4 \/ z = 5 \/ z = 6 \/ z = 7) by lia.
  destruct C as [->|[->|[->|[->|[->|[->|[->| ->]]]]]]];
    [exists TNotExist|exists TString|exists TNumber|exists TObject|exists TArray|exists TBoolean|exists TNull|exists TUnknown]; reflexivity.
Qed.
Theorem type_string_total z : exists s, type_string z = Ok s /\ ((forall t, z <> type_number t) -> type_string (type_number TNotExist) = Ok s).
Proof.
  unfold type_string. change (type_number TUnknown) with 7. change (type_number TNotExist) with 0.
  destruct (Z.ltb_spec 7 z) as [H|H]; [exists (bs "illegal"); split; reflexivity|].
  destruct (Z.ltb_spec z 0) as [H0|H0]; [exists (bs "illegal"); split; reflexivity|].
  destruct (in_table z) as (t & ->); [lia|].
  assert (Hn : type_number t <? 0 = false) by now destruct t. rewrite Hn.
  destruct t; eexists; (split; [reflexivity|]); intros Hx; exfalso; eapply Hx; reflexivity.
Qed.
