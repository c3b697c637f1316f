(** Instances: texts of documents that differ or not. *)
From Verif Require Import Base Utf8 Float64 Value Scan Unmarshal Opt Marshal Compare SpecJson SpecValue SpecLax SpecText SpecOpts SpecPath SpecLaws SpecApart
  MarshalClaims LawsProof LawsText LawsClaims ContainProof ExampleWorld.

Lemma written_alike : exists b1 b2 v w b, Forall is_byte b1 /\ Forall is_byte b2 /\
  (forall E, unmarshal E b1 = Ok (v, None) /\ unmarshal E b2 = Ok (w, None)) /\
  (forall E W, marshal_opt E W opt0 v = Ok b /\ marshal_opt E W opt0 w = Ok b) /\
  forall W path, equal W path v w = false.
Proof.
  exists [34; 192; 97; 34], [34; 193; 97; 34], (VStr [192; 97]), (VStr [193; 97]), (bs """\uFFFDa""").
  split; [repeat constructor; unfold is_byte; lia|]. split; [repeat constructor; unfold is_byte; lia|].
  split; [intros E; split; reflexivity|]. split; [intros E W; split; reflexivity|reflexivity].
Qed.

Lemma equal_apart : exists v w, unmarshal env0 (bs "1.0") = Ok (v, None) /\ unmarshal env0 (bs "1") = Ok (w, None) /\
  (forall W path, equal W path v w = true) /\ (forall W, marshal_opt env0 W opt_sorted v <> marshal_opt env0 W opt_sorted w).
Proof.
  eexists _, _. split; [vm_compute; reflexivity|]. split; [vm_compute; reflexivity|]. split; [intros W path; vm_compute; reflexivity|].
  intros W. vm_compute. discriminate.
Qed.

Lemma exchanged : exists v w, unmarshal env0 (bs "{""a"":[1,""x""],""b"":null}") = Ok (v, None) /\
  unmarshal env0 (bs " {""b"" : null, ""a"":[1,""x""] } ") = Ok (w, None) /\ v <> w /\ same_doc v w /\
  forall W W', marshal_opt env0 W opt_sorted v = marshal_opt env0 W' opt_sorted w.
Proof.
  eexists _, _. split; [vm_compute; reflexivity|]. split; [vm_compute; reflexivity|]. split; [discriminate|].
  match goal with |- same_doc ?v ?w /\ _ => assert (S : same_doc v w) end.
  { constructor.
    - intros k id x [[= <- <- <-]|[[= <- <- <-]|[]]]; eexists _, _; (split; [cbn; eauto|]);
        first [apply same_leaf; exact I|apply same_elems; repeat constructor].
    - intros k id x [[= <- <- <-]|[[= <- <- <-]|[]]]; eexists _, _; (split; [cbn; eauto|]);
        first [apply same_leaf; exact I|apply same_elems; repeat constructor]. }
  split; [exact S|]. intros W W'. apply same_text; [| |exact S|left; reflexivity].
  - apply typed_maps. vm_compute. repeat split; repeat constructor; intros H; repeat destruct H as [H|H]; discriminate || auto.
  - apply typed_maps. vm_compute. repeat split; repeat constructor; intros H; repeat destruct H as [H|H]; discriminate || auto.
Qed.
