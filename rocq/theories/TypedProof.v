(** The typed variants: proofs. *)
From Verif Require Import Base Utf8 Float64 Value Scan Opt Marshal ListLemmas ValueLemmas Access Path Edit Base64
  SpecText SpecPath SpecReach Typed SpecTyped SpecBase64 PathProof EditProof SetProof SetClaims SetExact EditClaims Base64Proof.

Lemma found_reads_back E W v a p o : of_type E a -> get E W false v p o = (v, Ok (new_typed E a)) -> reads_back E W v a (p :: o).
Proof.
  intros T G. destruct a; cbn [reads_back new_typed of_type] in *;
    unfold get_string, get_bytes, get_bool, get_int, get_int64, get_int32, get_uint, get_uint64, get_uint32,
      get_float64, get_float32, get_null, get_object, get_array; rewrite G; cbn [snd typed]; try reflexivity.
  - unfold new_bytes. cbn. now rewrite decode_encode.
  - cbn. f_equal. f_equal. unfold wrap_i32. rewrite Z.mod_small by (unfold two31, two32 in *; lia). lia.
  - cbn. f_equal. f_equal. unfold wrap_u32. rewrite Z.mod_small by (unfold two32 in *; lia). reflexivity.
  - cbn. now rewrite T.
  - exists 0, None. reflexivity.
Qed.

Lemma typed_maps E a : maps_ok (new_typed E a).
Proof. destruct a; cbn; auto. split; [constructor|exact I]. Qed.

Theorem set_typed_get E W v a p o v' x : of_type E a -> maps_ok v -> Forall plain (p :: o) -> reach_ok v (p :: o) ->
  set_typed E v a p o = (v', Ok x) -> x = new_typed E a /\ reads_back E W v' a (p :: o).
Proof.
  intros T M HP R H. destruct (set_exactly E W v _ p o v' x M (typed_maps E a) HP H) as (w & y & fr & rest & _ & _ & _ & _ & _ & _ & _ & G).
  destruct (G R) as (-> & G'). split; [reflexivity|]. exact (found_reads_back _ _ _ _ _ _ T G').
Qed.

Lemma leads_reads E W v a path : of_type E a -> maps_ok v -> Forall plain path -> path <> [] ->
  (exists hs, leads v path hs (new_typed E a)) -> reads_back E W v a path.
Proof.
  intros T M HP N L. destruct path as [|p o]; [now destruct N|]. apply found_reads_back; [exact T|].
  now apply get_leads.
Qed.

Lemma changed_maps' d d' : (maps_ok d -> maps_ok d') -> forall hs v v',
  changed (fun a a' => a = d /\ a' = d') hs v v' -> maps_ok v -> maps_ok v'.
Proof. intros K hs v v' H M. refine (changed_maps _ _ _ _ _ H M). now intros x x' (-> & ->). Qed.

Theorem insert_typed_get E W (after : bool) v a ps p first others v' x : of_type E a -> maps_ok v ->
  Forall plain (first :: others) -> first :: others = ps ++ [p] ->
  insert_typed E W after v a first others = (v', Ok x) ->
  x = new_typed E a /\ exists hs l i, leads v ps hs (VArr l) /\ index_value p = Some i /\
    - Z.of_nat (List.length l) <= i < Z.of_nat (List.length l) /\
    reads_back E W v' a (ps ++ [PInt ((if i <? 0 then i + Z.of_nat (List.length l) else i) + (if after then 1 else 0))]).
Proof.
  intros T M HP Hsp H. unfold insert_typed in H.
  assert (H' : (if after then insert_after E W v (arg_v (new_typed E a)) first others
                else insert_before E W v (arg_v (new_typed E a)) first others) = (v', Ok x)) by (destruct after; exact H).
  apply (insert_iff E W after v _ ps p first others v' x M HP Hsp) in H' as (-> & hs & d & i & Hl & Hi & Hc).
  split; [reflexivity|].
  destruct (changed_leads _ _ _ _ _ Hl M _ Hc) as (d' & HA & Hl' & Hd).
  assert (AD : exists l1 e b, d = VArr (l1 ++ e :: b) /\ refers i l1 b /\
             d' = VArr (if after then l1 ++ e :: new_typed E a :: b else l1 ++ new_typed E a :: e :: b)).
  { unfold added in HA. destruct after; destruct HA as (l1 & e & b & -> & Rf & ->); exists l1, e, b; auto. }
  destruct AD as (l1 & e & b & -> & Rf & ->). exists hs, (l1 ++ e :: b), i. split; [exact Hl|]. split; [exact Hi|].
  pose proof (refers_bounds _ _ e _ Rf) as Bd. split; [exact Bd|].
  assert (Mv' : maps_ok v').
  { refine (changed_maps' _ _ _ _ _ _ Hd M). intros Md. apply maps_ok_arr, Forall_app in Md as (M1 & M2). apply maps_ok_arr.
    destruct after; apply Forall_app; (split; [exact M1|]).
    - constructor; [exact (Forall_inv M2)|]. constructor; [apply typed_maps|exact (Forall_inv_tail M2)].
    - constructor; [apply typed_maps|exact M2]. }
  assert (HPs : Forall plain ps) by (rewrite Hsp in HP; now apply Forall_app in HP).
  assert (Pos : (if i <? 0 then i + Z.of_nat (List.length (l1 ++ e :: b)) else i) = Z.of_nat (List.length l1)).
  { rewrite app_length in *. cbn [List.length] in *. destruct Rf as [Q|Q]; destruct (Z.ltb_spec i 0); lia. }
  rewrite Pos. apply leads_reads; [exact T|exact Mv'| |now destruct ps|].
  - apply Forall_app. split; [exact HPs|]. constructor; [exact I|constructor].
  - destruct after; eexists; eapply leads_app; try exact Hl'.
    + change (l1 ++ e :: new_typed E a :: b) with (l1 ++ [e] ++ new_typed E a :: b). rewrite app_assoc.
      eapply leads_elem; [reflexivity| |constructor]. left. rewrite app_length. cbn. lia.
    + eapply leads_elem; [reflexivity| |constructor]. left. lia.
Qed.

Theorem append_typed_get E W (front : bool) v a ps v' x : of_type E a -> maps_ok v -> Forall plain ps -> reach_ok v ps ->
  append_typed E W front v a ps = (v', Ok x) ->
  x = new_typed E a /\ reads_back E W v' a (ps ++ [PInt (if front then 0 else -1)]).
Proof.
  intros T M HP R H. unfold append_typed in H.
  apply (append_iff E W front v _ ps v' x M HP) in H as (-> & HC). split; [reflexivity|].
  assert (HP' : Forall plain (ps ++ [PInt (if front then 0 else -1)])).
  { apply Forall_app. split; [exact HP|]. constructor; [exact I|constructor]. }
  assert (Last : forall l, exists h, leads (VArr (end_added front (new_typed E a) l)) [PInt (if front then 0 else -1)] h (new_typed E a)).
  { intros l. destruct front; cbn [end_added].
    - eexists. eapply leads_elem with (a := []); [reflexivity|now left|constructor].
    - eexists. eapply leads_elem; [reflexivity|now right|constructor]. }
  destruct HC as [(hs & l & Hl & Hc)|(p & r & y & -> & _ & Hs)].
  - destruct (changed_leads (fun _ a' => a' = VArr (end_added front (new_typed E a) l)) _ _ _ _ Hl M _ Hc) as (d' & -> & Hl' & _).
    assert (Mv' : maps_ok v').
    { refine (changed_maps' _ _ _ _ _ _ Hc M). intros Md. apply maps_ok_arr in Md. apply maps_ok_arr. unfold end_added.
      destruct front; [constructor; [apply typed_maps|exact Md]|]. apply Forall_app. split; [exact Md|].
      constructor; [apply typed_maps|constructor]. }
    destruct (Last l) as (h & L). apply leads_reads; [exact T|exact Mv'|exact HP'|now destruct ps|].
    eexists. exact (leads_app _ _ _ _ _ _ _ Hl' L).
  - assert (Mc : maps_ok (VArr [new_typed E a])) by (apply maps_ok_arr; constructor; [apply typed_maps|constructor]).
    pose proof Hs as Hs1. rewrite set_at_set_c in Hs1.
    destruct (set_c_outcome E (VArr [new_typed E a]) r v p v' y M HP Hs1) as (_ & HO).
    pose proof (set_outcome_maps _ _ _ _ HO M Mc) as Mv'.
    destruct (set_exactly E W v _ p r v' y M Mc HP Hs) as (w & z & fr & rest & _ & _ & _ & _ & _ & RO & _).
    apply RO in R as (hs & L1). destruct (Last []) as (h & L2).
    assert (EA : end_added front (new_typed E a) [] = [new_typed E a]) by now destruct front. rewrite EA in L2.
    apply leads_reads; [exact T|exact Mv'|exact HP'|now destruct r|].
    eexists. exact (leads_app _ _ _ _ _ _ _ L1 L2).
Qed.

Theorem must_typed E W v a p o ps (b : bool) :
  fst (must_set_typed E v a p o) = fst (set_typed E v a p o) /\
  fst (must_insert_typed E W b v a p o) = fst (insert_typed E W b v a p o) /\
  fst (must_append_typed E W b v a ps) = fst (append_typed E W b v a ps).
Proof. destruct b; repeat split; reflexivity. Qed.
