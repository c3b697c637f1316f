(** Statements about accessors in the form of the properties. *)
From Verif Require Import Base Utf8 Float64 Value Scan Unmarshal Opt Marshal Pure Access Path Edit
  SpecJson SpecValue SpecText SpecLax SpecPath SpecGet
  ListLemmas ValueLemmas PureProof UnmarshalProof SpecFacts NumProof LaxNum LaxParse MarshalProof RoundTrip NumFacts LaxClaims
  SortProof GetProof PathProof EditProof SetClaims EditClaims.

(** *** C27 *)

Lemma num_conv_spec {A} E (zero : A) (x : V -> res A) proj : 
  (forall n src, x (VNum n src) = Ok (proj n)) -> proj (match new_int64 0 with VNum n _ => n | _ => Num false false 0 0 S754_nan end) = zero ->
  forall c, c <> VNil -> number_contract zero proj (Ok c) (num_conv E x c).
Proof.
  intros Hx Hz c Hc. unfold num_conv, number_contract.
  destruct c; cbn [number_and_error]; try (cbn [rbind]; unfold new_int64; rewrite Hx; cbn [rbind]; now rewrite <- Hz).
  - intros Hs. destruct (number_of_text_spec E s Hs) as [(lit & n & H1 & H2 & ->)|(H1 & e & ->)].
    + left. exists lit, n. split; [assumption|]. split; [assumption|]. cbn [rbind]. now rewrite Hx.
    + right. split; [assumption|]. cbn [rbind]. unfold new_int64; rewrite Hx; cbn [rbind]. now rewrite <- Hz.
  - cbn [rbind]. now rewrite Hx.
  - contradiction.
Qed.

Lemma get_result E W cl v p o : no_nil v ->
  match snd (get E W cl v p o) with Ok c => no_nil c | Err _ => True | _ => False end.
Proof.
  intros N. pose proof (get_all_ends E W cl v p o N) as H. destruct (locate_ends E W cl v p o N) as (H1 & H2 & H3).
  revert H. unfold get. destruct (locate E W cl v p o) as [v' [hs|e| |]]; cbn [fst snd rbind] in *; auto.
  destruct (H3 _ eq_refl) as (c & Hc). rewrite Hc. intros _. eapply sub_no_nil; eassumption.
Qed.

Lemma typed_number {A} E W cl v p o (zero : A) x proj :
  (forall n src, x (VNum n src) = Ok (proj n)) -> proj (match new_int64 0 with VNum n _ => n | _ => Num false false 0 0 S754_nan end) = zero ->
  no_nil v -> number_contract zero proj (snd (get E W cl v p o)) (typed zero (num_conv E x) (snd (get E W cl v p o))).
Proof.
  intros Hx Hz N. pose proof (get_result E W cl v p o N) as H. destruct (snd (get E W cl v p o)) as [c|e| |]; try contradiction.
  - cbn [typed]. apply num_conv_spec; auto. now destruct c.
  - reflexivity.
Qed.

Lemma f_nonzero_spec f : f_nonzero f = false <-> (f = S754_zero true \/ f = S754_zero false).
Proof.
  unfold f_nonzero. destruct f as [[|]|[|]| |[|] m e]; cbn; split; try discriminate; try tauto; intros [H|H]; discriminate.
Qed.

Theorem getters_contract E W cl v p o : no_nil v ->
  let r := snd (get E W cl v p o) in
  number_contract 0 n_i64 r (get_int E W cl v p o) /\
  number_contract 0 n_u64 r (get_uint E W cl v p o) /\
  number_contract 0 n_i64 r (get_int64 E W cl v p o) /\
  number_contract 0 n_u64 r (get_uint64 E W cl v p o) /\
  number_contract 0 (fun n => wrap_i32 (n_i64 n)) r (get_int32 E W cl v p o) /\
  number_contract 0 (fun n => wrap_u32 (n_u64 n)) r (get_uint32 E W cl v p o) /\
  number_contract (S754_zero false) n_f64 r (get_float64 E W cl v p o) /\
  (to_f32 E (S754_zero false) = S754_zero false ->
   number_contract (S754_zero false) (fun n => to_f32 E (n_f64 n)) r (get_float32 E W cl v p o)) /\
  bool_contract r (get_bool E W cl v p o) /\
  type_contract [] sel_string r (get_string E W cl v p o) /\
  type_contract tt sel_null r (get_null E W cl v p o) /\
  type_contract VNotExist sel_object r (get_object E W cl v p o) /\
  type_contract VNotExist sel_array r (get_array E W cl v p o).
Proof.
  intros N r.
  assert (T : match r with Ok c => no_nil c | Err _ => True | _ => False end) by apply get_result, N.
  do 7 (split; [apply typed_number; [reflexivity|vm_compute; reflexivity|assumption]|]).
  split; [intros HE; apply typed_number; [reflexivity|exact HE|assumption]|].
  unfold get_bool, get_string, get_null, get_object, get_array. fold r. clearbody r.
  destruct r as [c|e| |]; try contradiction; cbn [typed]; [|repeat split; reflexivity].
  split; [|destruct c; try contradiction; cbn; repeat split; reflexivity].
  destruct c; try contradiction; cbn; try reflexivity.
  - eexists. split; [reflexivity|]. destruct (beqb_spec s [116; 114; 117; 101]); split; congruence.
  - eexists. split; [reflexivity|]. apply f_nonzero_spec.
Qed.

Lemma num_of_spec {A} E (zero : A) proj :
  proj (match new_int64 0 with VNum n _ => n | _ => Num false false 0 0 S754_nan end) = zero ->
  forall c, c <> VNil -> number_of zero proj c (let* n := num_of E c in Ok (proj n)).
Proof.
  intros Hz c Hc. unfold num_of, number_of. destruct c; cbn [number_from_not_number rbind]; try (unfold new_int64; cbn [rbind]; now rewrite <- Hz).
  - destruct s as [|x s].
    + left. split; [reflexivity|]. cbn [rbind]. unfold new_int64. cbn [rbind]. now rewrite <- Hz.
    + right. intros Hs. destruct (number_of_text_spec E (x :: s) Hs) as [(lit & n & H1 & H2 & ->)|(H1 & e & ->)].
      * left. exists lit, n. auto.
      * right. split; [assumption|]. unfold new_int64. cbn [rbind]. now rewrite <- Hz.
  - reflexivity.
Qed.

Theorem accessors_contract E v : v <> VNil ->
  number_of 0 n_i64 v (api_int E v) /\ number_of 0 n_u64 v (api_uint E v) /\
  number_of 0 n_i64 v (api_int64 E v) /\ number_of 0 n_u64 v (api_uint64 E v) /\
  number_of 0 (fun n => wrap_i32 (n_i64 n)) v (api_int32 E v) /\
  number_of 0 (fun n => wrap_u32 (n_u64 n)) v (api_uint32 E v) /\
  number_of (S754_zero false) n_f64 v (api_float64 E v) /\
  (to_f32 E (S754_zero false) = S754_zero false ->
   number_of (S754_zero false) (fun n => to_f32 E (n_f64 n)) v (api_float32 E v)).
Proof.
  intros Hv. do 7 (split; [apply num_of_spec; [vm_compute; reflexivity|assumption]|]).
  intros HE. apply (num_of_spec E (S754_zero false) (fun n => to_f32 E (n_f64 n))); [exact HE|assumption].
Qed.

Theorem blank_panics : exists v p, no_nil v /\ forall E W cl,
  snd (get E W cl v p []) = Ok (VStr [32]) /\
  get_int E W cl v p [] = Panic /\ get_float64 E W cl v p [] = Panic /\ api_int E (VStr [32]) = Panic.
Proof.
  exists (VArr [VStr [32]]), (PInt 0). split; [cbn; auto|]. intros E W cl. repeat split; reflexivity.
Qed.

(** Every string of white space only makes the numeric getters panic. *)
Lemma trim_space_blank s : spaces s -> trim_space s = [].
Proof.
  intros H. rewrite <- (app_nil_r s). change ([] : bytes) with (([] ++ []) : bytes) at 1.
  apply trim_space_of; [assumption|exists []; split; [constructor|reflexivity]|..].
  - intros e u He Heq. pose proof encs_ne as Hne. rewrite Forall_forall in Hne. cbn in Heq. destruct e; [now apply (Hne [])|discriminate].
  - intros e u He Heq. pose proof rencs_ne as Hne. rewrite Forall_forall in Hne. cbn in Heq. destruct e; [now apply (Hne [])|discriminate].
Qed.
Theorem blank_always_panics E W cl v p o s : snd (get E W cl v p o) = Ok (VStr s) -> spaces s ->
  get_int E W cl v p o = Panic /\ get_uint64 E W cl v p o = Panic /\ get_float64 E W cl v p o = Panic.
Proof.
  intros Hg Hs. unfold get_int, get_uint64, get_float64. rewrite Hg. unfold typed, num_conv, number_and_error, number_of_text.
  rewrite (trim_space_blank s Hs). auto.
Qed.

(** *** C42 *)

Theorem failed_parse_value E b v e : b <> [] -> unmarshal E b = Ok (v, Some e) ->
  value_type v = Ok TNotExist /\
  forall W cl p o,
    (exists e, snd (get E W cl v p o) = Err e) /\
    must_get E W cl v p o = (v, Ok VNotExist) /\
    (exists e, get_int E W cl v p o = Ok (0, Some e)) /\
    (exists e, get_string E W cl v p o = Ok ([], Some e)) /\
    (exists e, get_bool E W cl v p o = Ok (false, Some e)) /\
    (exists e, get_array E W cl v p o = Ok (VNotExist, Some e)) /\
    (exists e, get_object E W cl v p o = Ok (VNotExist, Some e)) /\
    (exists e, get_null E W cl v p o = Ok (tt, Some e)) /\
    api_len v = Ok 0%nat /\ api_string E W [] v = [] /\ (exists i, api_int E v = Ok i) /\
    (forall c, set_at E v (arg_v c) p o = (v, Err ErrMultipleParam) \/ set_at E v (arg_v c) p o = (v, Err ErrValueUninitialized)).
Proof.
  intros Hb H. destruct (failed_parse _ _ _ _ H) as [Hv _]. rewrite (Hv Hb) in *. clear Hv.
  split; [reflexivity|]. intros W cl p o.
  assert (G : exists e0, get E W cl VNotExist p o = (VNotExist, Err e0)).
  { unfold get, locate. cbn [locate_f]. destruct (peel p o) as [[q r]|]; cbn; eauto. }
  destruct G as (e0 & G). unfold must_get, get_int, get_string, get_bool, get_array, get_object, get_null. rewrite G. cbn [snd typed].
  repeat (split; [eauto; reflexivity|]). split; [exists 0; reflexivity|].
  intros c. unfold set_at, arg_v. cbn [snd fst set_f]. destruct (peel p o) as [[q r]|]; [right|left]; reflexivity.
Qed.

Theorem failed_parse_nil : exists b, forall E, unmarshal E b = Ok (VNil, Some ErrNilParameter) /\
  forall W cl p, plain p -> snd (get E W cl VNil p []) = Panic /\ get_int E W cl VNil p [] = Panic.
Proof.
  exists []. intros E. split; [reflexivity|]. intros W cl p Hp.
  assert (G : get E W cl VNil p [] = (VNil, Panic)).
  { unfold get, locate. cbn [locate_f]. destruct p; try contradiction; reflexivity. }
  unfold get_int. rewrite G. auto.
Qed.

(** *** C34 *)

Theorem append_hides_error : exists x e, snd x = Some e /\ forall E W l,
  append_end E W (VArr l) x [] = (VArr (l ++ [VNotExist]), Ok VNotExist) /\
  append_beginning E W (VArr l) x [] = (VArr (VNotExist :: l), Ok VNotExist).
Proof. exists (VNotExist, Some EOther), EOther. split; [reflexivity|]. intros E W l. split; reflexivity. Qed.

Theorem others_report_error E W v x e p o : snd x = Some e ->
  set_at E v x p o = (v, Err e) /\ insert_before E W v x p o = (v, Err e) /\ insert_after E W v x p o = (v, Err e).
Proof. intros H. unfold set_at, insert_before, insert_after. rewrite H. auto. Qed.

(** *** C08 *)

Lemma marshal_number_text E W o n c src : marshal_opt E W o (VNum n (c :: src)) = Ok (c :: src).
Proof. reflexivity. Qed.

Lemma decimal_ne t i : decimal t i -> exists c r, t = c :: r.
Proof. intros [[H _]|(ip & -> & _)]; [destruct H; eauto|eauto]. Qed.

Theorem int64_round_trip E W o i : - two63 <= i < two63 ->
  api_int64 E (new_int64 i) = Ok i /\
  exists t v, decimal t i /\ marshal_opt E W o (new_int64 i) = Ok t /\ unmarshal E t = Ok (v, None) /\
    api_int64 E v = Ok i /\ api_is_integer v = Ok true /\ api_is_negative v = Ok (i <? 0) /\
    api_is_float v = Ok false /\ marshal_opt E W o v = Ok t.
Proof.
  intros Hi. split; [reflexivity|]. pose proof (format_int_decimal i) as Hd.
  destruct (decimal_number E _ i Hd) as (n & Hq & H1 & H2 & H3 & H4); [unfold two63, two64 in *; lia|].
  destruct (decimal_ne _ _ Hd) as (c & r & Ht).
  exists (format_int i), (VNum n (format_int i)).
  split; [assumption|]. unfold new_int64. rewrite !Ht in *. split; [apply marshal_number_text|].
  split; [now apply lit_doc|]. unfold api_int64, num_of. cbn [rbind]. rewrite H4.
  assert (Hw : wrap_i64 i = i) by (apply wrap_i64_small; unfold two63 in *; lia). rewrite Hw.
  unfold api_is_integer, api_is_negative, api_is_float, on_number, on_value. rewrite H1, H2. repeat split; reflexivity.
Qed.

Theorem uint64_round_trip E W o u : 0 <= u < two64 ->
  api_uint64 E (new_uint64 u) = Ok u /\
  exists t v, decimal t u /\ marshal_opt E W o (new_uint64 u) = Ok t /\ unmarshal E t = Ok (v, None) /\
    api_uint64 E v = Ok u /\ api_is_integer v = Ok true /\ api_is_negative v = Ok false /\ api_is_float v = Ok false /\
    greater_than_int64_max v = Ok (two63 - 1 <? u) /\ marshal_opt E W o v = Ok t.
Proof.
  intros Hi. split; [reflexivity|]. pose proof (format_int_decimal u) as Hd.
  destruct (decimal_number E _ u Hd) as (n & Hq & H1 & H2 & H3 & H4); [unfold two63, two64 in *; lia|].
  destruct (decimal_ne _ _ Hd) as (c & r & Ht).
  exists (format_int u), (VNum n (format_int u)).
  split; [assumption|]. unfold new_uint64. rewrite !Ht in *. split; [apply marshal_number_text|].
  split; [now apply lit_doc|]. unfold api_uint64, num_of. cbn [rbind]. rewrite H3.
  assert (Hw : wrap_u64 u = u) by (apply wrap_u64_small; unfold two64 in *; lia). rewrite Hw.
  assert (Hneg : (u <? 0) = false) by lia.
  unfold api_is_integer, api_is_negative, api_is_float, greater_than_int64_max, on_number, on_value.
  rewrite H1, H2, H3, Hw, Hneg. repeat split; reflexivity.
Qed.

(** *** C41 *)

Theorem one_type v : json_typed v -> exists t, value_type v = Ok t /\
  let preds := [(TString, api_is_string v); (TNumber, api_is_number v); (TObject, api_is_object v);
                (TArray, api_is_array v); (TBoolean, api_is_boolean v); (TNull, api_is_null v)] in
  In t (map fst preds) /\
  Forall (fun p => (fst p = t -> snd p = Ok true) /\ (fst p <> t -> snd p = Ok false)) preds.
Proof.
  intros H. destruct v; try contradiction; eexists; (split; [reflexivity|]); cbn [In map fst];
    (split; [tauto|]); repeat constructor; cbn; congruence.
Qed.

Theorem len_array E W l : exists n, api_len (VArr l) = Ok n /\
  forall i, (exists c, snd (get E W false (VArr l) (PInt i) []) = Ok c) <-> - Z.of_nat n <= i < Z.of_nat n.
Proof.
  exists (List.length l). split; [reflexivity|]. intros i.
  unfold get, locate. cbn [locate_f peel find_child any_to_int rbind].
  unfold pos_read. destruct (Z.eqb_spec (Z.of_nat (List.length l)) 0).
  - cbn. split; [intros (c & H); discriminate|lia].
  - destruct (Z.ltb_spec i 0).
    + destruct (Z.ltb_spec (i + Z.of_nat (List.length l)) 0); cbn [snd rbind sub_at child_at].
      * split; [intros (c & H'); discriminate|lia].
      * split; [lia|]. intros _. destruct (nth_error l (Z.to_nat (i + Z.of_nat (List.length l)))) eqn:En; [eauto|].
        apply nth_error_None in En. lia.
    + destruct (Z.leb_spec (Z.of_nat (List.length l)) i); cbn [snd rbind sub_at child_at].
      * split; [intros (c & H'); discriminate|lia].
      * split; [lia|]. intros _. destruct (nth_error l (Z.to_nat i)) eqn:En; [eauto|].
        apply nth_error_None in En. lia.
Qed.

Theorem len_object E W i kvs lo : maps_ok (VObj i kvs lo) ->
  exists n ks, api_len (VObj i kvs lo) = Ok n /\ NoDup ks /\ List.length ks = n /\
  forall k, (exists c, snd (get E W false (VObj i kvs lo) (PStr k) []) = Ok c) <-> In k ks.
Proof.
  intros [Hn _]. exists (List.length kvs), (map fst kvs). split; [reflexivity|].
  split; [assumption|]. split; [apply map_length|]. intros k.
  unfold get, locate. cbn [locate_f peel find_child any_to_string]. unfold find_key.
  destruct (alookup k kvs) as [[id x]|] eqn:El; cbn [snd rbind sub_at child_at].
  - rewrite El. split; [|eauto]. intros _. apply alookup_In in El. apply in_map_iff. eexists. split; [|exact El]. reflexivity.
  - split; [intros (c & H); discriminate|]. intros H. apply in_map_iff in H as ([k' [id x]] & <- & H).
    exfalso. apply alookup_None in El. apply El. unfold akeys. now apply in_map_iff; eexists; split; [|exact H].
Qed.

Theorem len_other v : (forall l, v <> VArr l) -> (forall i kvs lo, v <> VObj i kvs lo) -> v <> VNil -> api_len v = Ok 0%nat.
Proof. intros H1 H2 H3. destruct v; try reflexivity; [now elim (H2 incr kvs lower)|now elim (H1 l)|contradiction]. Qed.

(** Every number in a parsed document is described by the predicates. *)
Definition described (n : num) (lit : bytes) : Prop :=
  let v := VNum n lit in
  (int_lit lit -> api_is_integer v = Ok true /\ api_is_float v = Ok false) /\
  (~ int_lit lit -> api_is_integer v = Ok false /\ api_is_float v = Ok true) /\
  (digits lit -> api_is_negative v = Ok false /\ api_is_positive v = Ok true /\
     (digits_val lit < two64 -> greater_than_int64_max v = Ok (two63 <=? digits_val lit))) /\
  (forall ip, lit = 45 :: ip -> digits ip ->
     api_is_negative v = Ok true /\ api_is_positive v = Ok false /\ greater_than_int64_max v = Ok false) /\
  (~ int_lit lit -> api_is_negative v = Ok (SFltb (n_f64 n) f_zero)).

Lemma lax_value_described lit n : lax_value lit n -> described n lit.
Proof.
  intros H. unfold described, api_is_integer, api_is_float, api_is_negative, api_is_positive, greater_than_int64_max, on_number, on_value.
  destruct H as [ip n Hd H1 H2 H3 H4 H5|ip n Hd H1 H2 H3 H4 H5|neg ip fr fd ex e n Hip Hcase Hfr Hex Hne H1 H2 H3].
  - assert (Hi : int_lit ip) by now left. rewrite H1, H2. split; [auto|]. split; [tauto|]. split; [|split; [|tauto]].
    + intros _. split; [reflexivity|]. split; [reflexivity|]. intros Hlt.
      assert (0 <= digits_val ip) by (destruct Hd as [_ Hd]; exact (proj1 (dval_bounds _ Hd))).
      rewrite Z.mod_small in H3 by lia. rewrite H3. f_equal. unfold two63.
      destruct (Z.ltb_spec 9223372036854775807 (digits_val ip)), (Z.leb_spec 9223372036854775808 (digits_val ip)); lia.
    + intros ip' -> _. now apply digits_neg in Hd.
  - assert (Hi : int_lit (45 :: ip)) by (right; eauto). rewrite H1, H2. split; [auto|]. split; [tauto|]. split; [|split; [auto|tauto]].
    intros Hd'. now apply digits_neg in Hd'.
  - destruct (frac_exp_char fr fd ex e Hfr Hex Hne) as (c & Hc1 & Hc2 & Hc3).
    assert (Hi : ~ int_lit ((if neg then [45] else []) ++ ip ++ fr ++ ex)).
    { intros [[_ Hd]|(ip' & Heq & _ & Hd)].
      - rewrite Forall_forall in Hd. apply Hc2, Hd. rewrite !in_app_iff. rewrite in_app_iff in Hc1. tauto.
      - rewrite Forall_forall in Hd.
        assert (Hin : In c (45 :: ip')). { rewrite <- Heq, !in_app_iff. rewrite in_app_iff in Hc1. tauto. }
        destruct Hin as [Hin|Hin]; [now elim Hc3|]. now apply Hc2, Hd. }
    rewrite H1, H2. cbn [negb]. split; [tauto|]. split; [auto|]. split; [intros Hd; elim Hi; now left|].
    split; [intros ip' Heq Hd; elim Hi; right; eauto|auto].
Qed.

Theorem parsed_described E b v : Forall is_byte b -> unmarshal E b = Ok (v, None) ->
  all_text (fun _ => True) described v.
Proof.
  intros Hb H. destruct (parsed_text E b v Hb H) as [_ Ht]. revert Ht. apply all_text_impl; [auto|].
  intros n src Hq. pose proof (q_number_lax _ _ _ Hq) as HN.
  destruct (lax_number_value E src HN) as (n' & Hq' & Hl). rewrite Hq in Hq'. injection Hq' as <-.
  now apply lax_value_described.
Qed.

Theorem float_is_integer : exists f, f = f_of_dec false 15 (-1) /\ forall E,
  api_is_integer (new_float64 E f) = Ok true /\ api_is_float (new_float64 E f) = Ok false.
Proof. eexists. split; [reflexivity|]. intros E. split; reflexivity. Qed.

Theorem greater_than_wrong : exists lit ip fd,
  num_lit lit false ip fd 0 false /\ digits_val (ip ++ fd) < (two63 - 1) * 10 ^ Z.of_nat (List.length fd) /\
  forall E, exists n, unmarshal E lit = Ok (VNum n lit, None) /\ greater_than_int64_max (VNum n lit) = Ok true.
Proof.
  exists (bs "9223372036854775806.5"), (bs "9223372036854775806"), (bs "5"). split; [|split].
  - apply (NumLit false (bs "9223372036854775806") (bs ".5") (bs "5") [] 0).
    + cbn. constructor; [lia|]. repeat constructor; unfold digit; lia.
    + cbn. constructor. split; [discriminate|]. repeat constructor; unfold digit; lia.
    + constructor.
  - vm_compute. reflexivity.
  - intros E. set (lit := bs "9223372036854775806.5").
    assert (Hl : exists s, q_num_loop lit 0 nst0 = Ok (s, lit, []) /\ s_flt s = true /\ s_dot s && negb (s_iad s) = false).
    { eexists. split; [vm_compute; reflexivity|]. split; reflexivity. }
    assert (Hf : exists f, parse_float lit = Some f /\ f_ltb0 f = false /\ f_trunc f = Some two63).
    { eexists. split; [vm_compute; reflexivity|]. split; vm_compute; reflexivity. }
    destruct Hl as (st & Hl & H1 & H2). destruct Hf as (f & Hf & H3 & H4).
    exists {| n_neg := f_ltb0 f; n_flt := true; n_i64 := f_to_i64 E f; n_u64 := f_to_u64 E f; n_f64 := f |}.
    split.
    + apply lit_doc. unfold q_number. rewrite Hl. cbn [rbind].
      assert (Hq : q_num_value E st lit = q_float E lit).
      { unfold q_num_value, lit. cbn [bs]. rewrite H1, H2. reflexivity. }
      rewrite Hq. unfold q_float. now rewrite Hf.
    + unfold greater_than_int64_max, on_number, on_value. cbn [n_neg n_u64]. rewrite H3. unfold f_to_u64. rewrite H4. reflexivity.
Qed.

(** *** C43 *)

Lemma join_with_joined l : joined l (join_with (bs ", ") l).
Proof.
  induction l as [|x [|y r] IH]; [constructor|constructor|].
  change (join_with (bs ", ") (x :: y :: r)) with (x ++ bs ", " ++ join_with (bs ", ") (y :: r)). now constructor.
Qed.

Definition with_text : V -> Prop := all_text (fun _ => True) (fun _ src => src <> []).

Lemma string_prints E W v : json_typed v -> with_text v -> forall path, prints v (api_string E W path v).
Proof.
  induction v as [ |s|n src|i kvs lo IH|l IH|b| | | ] using V_ind'; intros Ht Hx path; try contradiction; cbn [api_string].
  - constructor.
  - destruct src; [contradiction|constructor].
  - apply json_typed_obj in Ht as [_ Ht]. apply all_text_obj in Hx.
    set (f := fun e : bytes * (Z * V) => let '(k, (_, x)) := e in k ++ bs ": " ++ api_string E W (path ++ [string_key k]) x).
    assert (Hr : go_range W path (map f kvs) = map f (go_range W path kvs)).
    { unfold go_range. now rewrite map_length, arrange_map. }
    change (fun e : bytes * (Z * V) => let '(k, (_, x)) := e in k ++ bs ": " ++ api_string E W (path ++ [string_key k]) x) with f.
    rewrite Hr. eapply prints_obj with (kvs' := go_range W path kvs); [apply Permutation_sym, go_range_perm| |apply join_with_joined].
    assert (HF : Forall (fun m => exists p, prints (snd (snd m)) p /\ f m = fst m ++ bs ": " ++ p) (go_range W path kvs)).
    { eapply Permutation_Forall; [apply Permutation_sym, go_range_perm|]. rewrite Forall_forall in *.
      intros [k [id x]] Hin. eexists. split; [apply (IH _ Hin); [exact (Ht _ Hin)|apply (Hx _ Hin)]|]. reflexivity. }
    clear - HF. revert HF. generalize (go_range W path kvs). intros l HF. induction HF as [|m r (p & H1 & H2) HF IHF]; constructor; eauto.
  - apply json_typed_arr in Ht. apply all_text_arr in Hx.
    eapply prints_arr; [|apply join_with_joined]. generalize 0 at 1.
    revert Ht Hx. induction IH as [|x l Hh IH IHl]; intros Ht Hx z; constructor.
    + apply Hh; [exact (Forall_inv Ht)|exact (Forall_inv Hx)].
    + apply IHl; [exact (Forall_inv_tail Ht)|exact (Forall_inv_tail Hx)].
  - destruct b; [apply (prints_bool true)|apply (prints_bool false)].
  - constructor.
Qed.

Theorem string_any E W v : forall path, prints_any E v (api_string E W path v).
Proof.
  induction v as [ |s|n src|i kvs lo IH|l IH|b| | | ] using V_ind'; intros path; cbn [api_string]; try first [apply PA_nil|apply PA_not_exist|apply PA_unknown].
  - apply PA_plain. constructor.
  - destruct src; [apply PA_num|apply PA_plain; constructor].
  - set (f := fun e : bytes * (Z * V) => let '(k, (_, x)) := e in k ++ bs ": " ++ api_string E W (path ++ [string_key k]) x).
    assert (Hr : go_range W path (map f kvs) = map f (go_range W path kvs)).
    { unfold go_range. now rewrite map_length, arrange_map. }
    change (fun e : bytes * (Z * V) => let '(k, (_, x)) := e in k ++ bs ": " ++ api_string E W (path ++ [string_key k]) x) with f.
    rewrite Hr. eapply PA_obj with (kvs' := go_range W path kvs); [apply Permutation_sym, go_range_perm| |apply join_with_joined].
    assert (HF : Forall (fun m => exists p, prints_any E (snd (snd m)) p /\ f m = fst m ++ bs ": " ++ p) (go_range W path kvs)).
    { eapply Permutation_Forall; [apply Permutation_sym, go_range_perm|]. rewrite Forall_forall in *.
      intros [k [id x]] Hin. eexists. split; [apply (IH _ Hin)|]. reflexivity. }
    clear - HF. revert HF. generalize (go_range W path kvs). intros l HF. induction HF as [|m r (p & H1 & H2) HF IHF]; constructor; eauto.
  - eapply PA_arr; [|apply join_with_joined]. generalize 0 at 1. induction IH as [|x l Hh IH IHl]; intros z; constructor; [apply Hh|apply IHl].
  - apply PA_plain. destruct b; [apply (prints_bool true)|apply (prints_bool false)].
  - apply PA_plain. constructor.
Qed.

Theorem parsed_prints E W b v : Forall is_byte b -> unmarshal E b = Ok (v, None) -> prints v (api_string E W [] v).
Proof.
  intros Hb H. apply string_prints.
  - apply (parsed_text E b v Hb H).
  - destruct (parsed_text E b v Hb H) as [_ Ht]. revert Ht. apply all_text_impl; [auto|].
    intros n src Hq Hs. subst src. apply q_number_lax in Hq. destruct (lax_num_ends _ Hq) as (c & t & _ & _ & Heq & _). discriminate.
Qed.

Theorem number_predicates v : json_typed v -> exists b f i n p g,
  api_is_number v = Ok b /\ api_is_float v = Ok f /\ api_is_integer v = Ok i /\ api_is_negative v = Ok n /\ api_is_positive v = Ok p /\
  greater_than_int64_max v = Ok g /\
  (b = false -> f = false /\ i = false /\ n = false /\ p = false /\ g = false) /\
  (b = true -> i = negb f /\ p = negb n /\ (n = true -> g = false)).
Proof.
  intros H. destruct v; try destruct H; cbn; do 6 eexists; repeat split; try discriminate.
  intros ->. reflexivity.
Qed.
