(** When the output is JSON: instances. *)
From Verif Require Import Base Float64 Value Scan Unmarshal Opt Marshal ListLemmas SpecJson SpecValue SpecLax SpecText SpecOpts SpecOrder SpecOut SpecSpell
  UnmarshalProof ValueLemmas NumProof LaxFacts MarshalProof MarshalClaims OutSpell OutExact OutClaims MarshalExamples ExampleWorld.

(** Nulls at both ends in the order of names, and a null in the middle. *)
Definition nulls_out : V :=
  VObj 4 [(bs "b", (1, VStr (bs "x"))); (bs "d", (2, VNull)); (bs "c", (3, VBool true)); (bs "a", (4, VNull))] None.
Definition nulls_sorted : V :=
  VObj 4 [(bs "a", (4, VNull)); (bs "b", (1, VStr (bs "x"))); (bs "c", (3, VBool true)); (bs "d", (2, VNull))] None.
Definition null_in : V :=
  VObj 3 [(bs "b", (1, VStr (bs "x"))); (bs "c", (2, VNull)); (bs "d", (3, VBool true))] None.
Definition opt_sorted_omit : opt := combine_options opt0 [OLess (Some default_string_sequence); OOmitNull true].

Lemma nulls_ok : forall E W,
  marshal_opt E W opt_sorted_omit nulls_out = Ok (bs "{""b"":""x"",""c"":true}") /\ (exists j, json_doc (bs "{""b"":""x"",""c"":true}") j) /\
  marshal_opt E W opt_sorted_omit null_in = Ok (bs "{""b"":""x""""d"":true}") /\ (forall j, ~ json_doc (bs "{""b"":""x""""d"":true}") j).
Proof.
  assert (B : forall s c, Forall is_byte s /\ ~ In 11 s -> 97 <= c <= 122 -> Forall is_byte (c :: s) /\ ~ In 11 (c :: s)).
  { intros s c [H1 H2] Hc. split; [constructor; [unfold is_byte; lia|exact H1]|]. intros [X|X]; [lia|auto]. }
  assert (K : forall c, 97 <= c <= 122 -> Forall is_byte [c] /\ ~ In 11 [c]).
  { intros c Hc. apply B; [|exact Hc]. split; [constructor|intros []]. }
  assert (T1 : json_typed nulls_out).
  { apply json_typed_obj. split; [cbn; repeat (constructor; [cbn; intuition discriminate|]); constructor|repeat constructor]. }
  assert (T2 : json_typed null_in).
  { apply json_typed_obj. split; [cbn; repeat (constructor; [cbn; intuition discriminate|]); constructor|repeat constructor]. }
  assert (A1 : all_text (Forall is_byte) num_bytes nulls_out) by (cbn; repeat split; try apply K; lia).
  assert (A2 : all_text (Forall is_byte) num_bytes null_in) by (cbn; repeat split; try apply K; lia).
  assert (Hw : opt_ws opt_sorted_omit) by (split; constructor).
  intros E W.
  assert (M1 : marshal_opt E W opt_sorted_omit nulls_out = Ok (bs "{""b"":""x"",""c"":true}")).
  { rewrite (output_determined E W world1 opt_sorted_omit nulls_out T1).
    - vm_compute. reflexivity.
    - apply all_objs_obj. split; [|repeat constructor]. exact default_total. }
  assert (M2 : marshal_opt E W opt_sorted_omit null_in = Ok (bs "{""b"":""x""""d"":true}")).
  { rewrite (output_determined E W world1 opt_sorted_omit null_in T2).
    - vm_compute. reflexivity.
    - apply all_objs_obj. split; [|repeat constructor]. exact default_total. }
  split; [exact M1|]. split; [|split; [exact M2|]].
  - change (bs "{""b"":""x"",""c"":true}") with (spell opt_sorted_omit nulls_sorted 0).
    assert (T3 : json_typed nulls_sorted).
    { apply json_typed_obj. split; [cbn; repeat (constructor; [cbn; intuition discriminate|]); constructor|repeat constructor]. }
    assert (A3 : all_text (Forall is_byte) num_bytes nulls_sorted) by (cbn; repeat split; try apply K; lia).
    apply (spell_exact opt_sorted_omit (proj1 Hw) (proj2 Hw) nulls_sorted T3 A3). split.
    + constructor. apply Forall_cons; [left; split; reflexivity|]. apply Forall_cons; [right; split; [exact (proj2 (K 98 ltac:(lia)))|constructor; exact (proj2 (K 120 ltac:(lia)))]|].
      apply Forall_cons; [right; split; [exact (proj2 (K 99 ltac:(lia)))|constructor]|]. apply Forall_cons; [left; split; reflexivity|constructor].
    + apply all_objs_obj. split; [|repeat constructor].
      exists [(bs "a", (4, VNull))], [(bs "b", (1, VStr (bs "x"))); (bs "c", (3, VBool true))], [(bs "d", (2, VNull))].
      split; [reflexivity|]. split; [repeat constructor|]. split; [|repeat constructor].
      repeat constructor; intros [_ H]; discriminate H.
  - change (bs "{""b"":""x""""d"":true}") with (spell opt_sorted_omit null_in 0).
    intros j Hj.
    assert (H : ok opt_sorted_omit null_in) by (apply (spell_exact opt_sorted_omit (proj1 Hw) (proj2 Hw) null_in T2 A2); now exists j).
    destruct H as [_ H]. apply all_objs_obj in H as [(a & b & c & Ek & H1 & H2 & H3) _].
    destruct a as [|x1 a]; [|cbn in Ek; injection Ek as E1 _; inversion H1 as [|? ? [_ X] _]; subst; discriminate X].
    cbn [app] in Ek. destruct b as [|x1 b]; [cbn [app] in Ek; subst c; inversion H3 as [|? ? [_ X] _]; discriminate X|].
    cbn [app] in Ek. injection Ek as E1 Ek. destruct b as [|x2 b].
    + cbn [app] in Ek. subst c. inversion H3 as [|? ? _ H4]; subst. inversion H4 as [|? ? [_ X] _]; discriminate X.
    + cbn [app] in Ek. injection Ek as E2 _. inversion H2 as [|? ? _ H4]; subst. inversion H4 as [|? ? X _]; subst. apply X. split; reflexivity.
Qed.

(** A number that the parser accepts and JSON does not allow. *)
Lemma reparse_not_json : forall W, exists v, unmarshal env0 (bs "[-01]") = Ok (v, None) /\ json_typed v /\
  all_text (Forall is_byte) num_bytes v /\ marshal_opt env0 W opt0 v = Ok (bs "[-01]") /\ forall j, ~ json_doc (bs "[-01]") j.
Proof.
  assert (NB : num_bytes (Num true false (-1) 18446744073709551615 (S754_finite true 1 0)) [45; 48; 49])
    by (split; [discriminate|]; repeat (apply Forall_cons; [unfold number_byte, digit; lia|]); constructor).
  intros W. eexists. split; [vm_compute; reflexivity|]. split; [|split; [|split]].
  - apply json_typed_arr. repeat constructor.
  - apply all_text_arr. constructor; [|constructor]. exact NB.
  - vm_compute. reflexivity.
  - intros j Hj.
    destruct (json_exactly env0 world1 opt0 (VArr [VNum (Num true false (-1) 18446744073709551615 (S754_finite true 1 0)) (bs "-01")])) as (b & Hm & HX & _).
    + reflexivity.
    + split; constructor.
    + apply json_typed_arr. repeat constructor.
    + apply all_text_arr. constructor; [|constructor]. exact NB.
    + assert (E : b = bs "[-01]") by (vm_compute in Hm; injection Hm as <-; reflexivity). rewrite E in HX.
      assert (HA : all_text (fun s => ~ In 11 s) (fun _ src => rfc_lit src) (VArr [VNum (Num true false (-1) 18446744073709551615 (S754_finite true 1 0)) (bs "-01")]))
        by (apply HX; now exists j).
      apply all_text_arr in HA. apply Forall_inv in HA as HL. cbn in HL. destruct HL as (neg & ip & fd & e & i & HL).
      remember [45; 48; 49] as lit eqn:E0 in HL. destruct HL as [neg ip fr fd ex e Hi Hf He]. destruct neg; [|destruct Hi; cbn in E0; injection E0; lia].
      cbn [app] in E0. injection E0 as E0. destruct Hi as [|d ds Hd _]; cbn [app] in E0; [injection E0 as E0|injection E0 as E1 E0; lia].
      destruct Hf; cbn [app] in E0; [|discriminate E0]. destruct He; cbn [app] in E0; try discriminate E0; injection E0; lia.
Qed.
