(** C73: how deep the calls of Unmarshal go. *)
From Verif Require Import Base Float64 Value Scan Unmarshal Stack Pure PureProof ListLemmas UnmarshalProof
  SpecJson SpecValue Utf8Proof NumProof ParseComplete ParseFacts SpecLax LaxNum LaxParse LaxFacts JsonLax
  SpecParseErrors ParseErrorsProof SpecStack ExampleWorld.

(** *** The parser over lists, with a stack *)

Definition deeper_q {A} (d : nat) (call : nat -> res A) : res A :=
  match d with O => Panic | S d' => call d' end.

Section PureD.
Variable E : Env.

Fixpoint qd_arr (fuel d : nat) (r : bytes) (acc : list V) : res (V * bytes) :=
  match fuel with
  | O => Fuel
  | S f =>
    match q_skip r with
    | [] => Err ErrNotArrayValue
    | c :: t =>
      if c =? 93 then Ok (VArr acc, t)
      else if c =? 44 then qd_arr f d t acc
      else if c =? 123 then
        let* (v, r') := deeper_q d (fun d' => qd_obj f d' t new_object None false) in qd_arr f d r' (acc ++ [v])
      else if c =? 91 then
        let* (v, r') := deeper_q d (fun d' => qd_arr f d' t []) in qd_arr f d r' (acc ++ [v])
      else if c =? 34 then
        let* (s, r') := q_str (S (List.length t)) t in qd_arr f d r' (acc ++ [VStr s])
      else match q_scalar E c (c :: t) with
           | Some m => let* (v, r') := m in qd_arr f d r' (acc ++ [v])
           | None => Err ErrRawBytesUnrecognized
           end
    end
  end
with qd_obj (fuel d : nat) (r : bytes) (obj : V) (key : option bytes) (colon : bool)
  : res (V * bytes) :=
  match fuel with
  | O => Fuel
  | S f =>
    match q_skip r with
    | [] => Err ErrNotObjectValue
    | c :: t =>
      let store (v : V) (r' : bytes) : res (V * bytes) :=
        match key with
        | None => Panic
        | Some k =>
          let* obj' := set_to_object E obj k v in
          qd_obj f d r' obj' None false
        end in
      let missing := match key with None => true | Some _ => negb colon end in
      let haskey := match key with None => false | Some _ => true end in
      if c =? 125 then
        if haskey then Err ErrNotObjectValue else Ok (obj, t)
      else if c =? 44 then
        if haskey then Err ErrNotObjectValue else qd_obj f d t obj key colon
      else if c =? 58 then
        if colon then Err ErrNotObjectValue
        else if negb haskey then Err ErrNotObjectValue
        else qd_obj f d t obj key true
      else if c =? 123 then
        if missing then Err ErrNotObjectValue
        else let* (v, r') := deeper_q d (fun d' => qd_obj f d' t new_object None false) in store v r'
      else if c =? 91 then
        if missing then Err ErrNotObjectValue
        else let* (v, r') := deeper_q d (fun d' => qd_arr f d' t []) in store v r'
      else if c =? 34 then
        if haskey then
          if negb colon then Err ErrNotObjectValue
          else let* (s, r') := q_str (S (List.length t)) t in store (VStr s) r'
        else
          let* (s, r') := q_str (S (List.length t)) t in qd_obj f d r' obj (Some s) colon
      else match q_scalar E c (c :: t) with
           | Some m =>
             if missing then Err ErrNotObjectValue
             else let* (v, r') := m in store v r'
           | None => Err ErrRawBytesUnrecognized
           end
    end
  end.

Definition qd_value (fuel d : nat) (c : Z) (t : bytes) : res (V * bytes) :=
  if c =? 123 then deeper_q d (fun d' => qd_obj fuel d' t new_object None false)
  else if c =? 91 then deeper_q d (fun d' => qd_arr fuel d' t [])
  else q_value E fuel c t.

Definition qd_unmarshal (d : nat) (r : bytes) : res V :=
  match q_skip r with
  | [] => Err ErrRawBytesUnrecognized
  | c :: t =>
    let* (v, r') := qd_value (S (List.length r)) d c t in
    match q_skip r' with
    | [] => Ok v
    | _ :: _ => Err ErrRawBytesUnrecognized
    end
  end.

Lemma qd_arr_S f d r acc : qd_arr (S f) d r acc =
    match q_skip r with
    | [] => Err ErrNotArrayValue
    | c :: t =>
      if c =? 93 then Ok (VArr acc, t)
      else if c =? 44 then qd_arr f d t acc
      else if c =? 123 then
        let* (v, r') := deeper_q d (fun d' => qd_obj f d' t new_object None false) in qd_arr f d r' (acc ++ [v])
      else if c =? 91 then
        let* (v, r') := deeper_q d (fun d' => qd_arr f d' t []) in qd_arr f d r' (acc ++ [v])
      else if c =? 34 then
        let* (s, r') := q_str (S (List.length t)) t in qd_arr f d r' (acc ++ [VStr s])
      else match q_scalar E c (c :: t) with
           | Some m => let* (v, r') := m in qd_arr f d r' (acc ++ [v])
           | None => Err ErrRawBytesUnrecognized
           end
    end.
Proof. reflexivity. Qed.

Lemma qd_obj_S f d r obj key colon : qd_obj (S f) d r obj key colon =
    match q_skip r with
    | [] => Err ErrNotObjectValue
    | c :: t =>
      let store (v : V) (r' : bytes) : res (V * bytes) :=
        match key with
        | None => Panic
        | Some k =>
          let* obj' := set_to_object E obj k v in
          qd_obj f d r' obj' None false
        end in
      let missing := match key with None => true | Some _ => negb colon end in
      let haskey := match key with None => false | Some _ => true end in
      if c =? 125 then
        if haskey then Err ErrNotObjectValue else Ok (obj, t)
      else if c =? 44 then
        if haskey then Err ErrNotObjectValue else qd_obj f d t obj key colon
      else if c =? 58 then
        if colon then Err ErrNotObjectValue
        else if negb haskey then Err ErrNotObjectValue
        else qd_obj f d t obj key true
      else if c =? 123 then
        if missing then Err ErrNotObjectValue
        else let* (v, r') := deeper_q d (fun d' => qd_obj f d' t new_object None false) in store v r'
      else if c =? 91 then
        if missing then Err ErrNotObjectValue
        else let* (v, r') := deeper_q d (fun d' => qd_arr f d' t []) in store v r'
      else if c =? 34 then
        if haskey then
          if negb colon then Err ErrNotObjectValue
          else let* (s, r') := q_str (S (List.length t)) t in store (VStr s) r'
        else
          let* (s, r') := q_str (S (List.length t)) t in qd_obj f d r' obj (Some s) colon
      else match q_scalar E c (c :: t) with
           | Some m =>
             if missing then Err ErrNotObjectValue
             else let* (v, r') := m in store v r'
           | None => Err ErrRawBytesUnrecognized
           end
    end.
Proof. reflexivity. Qed.

(** *** The parser in place computes the same *)

Lemma loops_refine_d fuel : forall d,
  (forall s off right R acc,
     skipn off (p_buf s) = R -> (off <= right)%nat -> right = List.length (p_buf s) ->
     refines (qd_arr fuel d R acc) (arr_loop_d E fuel d s off right acc) s off)
  /\
  (forall s off right R obj key ks ke colon,
     skipn off (p_buf s) = R -> (off <= right)%nat -> right = List.length (p_buf s) ->
     krel (p_buf s) off key ks ke ->
     refines (qd_obj fuel d R obj key colon) (obj_loop_d E fuel d s off right obj ks ke colon) s off).
Proof.
  induction fuel as [|f IH]; intros d.
  { split; intros; reflexivity. }
  pose proof (fun d0 => proj1 (IH d0)) as IHa. pose proof (fun d0 => proj2 (IH d0)) as IHo.
  split.
  - intros s off right R acc HR Hle Hright. subst right.
    cbn [qd_arr arr_loop_d].
    pose proof (skip_blanks_spec _ _ _ HR Hle) as SB.
    pose proof (skipn_len _ _ _ HR Hle) as HLR.
    destruct (Nat.ltb_spec off (List.length (p_buf s))) as [Hlt|Hge].
    2:{ destruct R; [|simpl in HLR; lia]. cbn [q_skip]. now apply refines_err. }
    destruct (q_skip R) as [|c t].
    { rewrite SB. cbn [lift]. now apply refines_err. }
    destruct SB as (off' & -> & H1 & H2 & H3). cbn [lift].
    rewrite (bget_skipn _ _ _ _ H1). cbn [lift].
    pose proof (skipn_S _ _ _ _ H1) as H4.
    assert (Hpool : forall (A : Type) (q : res (A * bytes)) p, refines q p (pool_get s) (S off') -> refines q p s off).
    { intros A q p. apply refines_pool; assumption. }
    destruct (c =? 93).
    { exists (S off'), s. split; [reflexivity|]. split; [exact H4|]. apply ext_refl; lia. }
    destruct (c =? 44).
    { eapply refines_weaken; [| |apply IHa; [exact H4|lia|reflexivity]]; lia. }
    destruct (c =? 123).
    { apply refines_bind.
      - apply Hpool. destruct d as [|d]; [reflexivity|]. cbn [deeper deeper_q]. apply IHo; try assumption; try reflexivity.
      - intros v rest e s' _ Hs' X. apply IHa; [assumption|..];
          pose proof (ext_order _ _ _ _ X); pose proof (ext_len _ _ _ _ X); lia. }
    destruct (c =? 91).
    { apply refines_bind.
      - apply Hpool. destruct d as [|d]; [reflexivity|]. cbn [deeper deeper_q]. apply IHa; try assumption; try reflexivity.
      - intros v rest e s' _ Hs' X. apply IHa; [assumption|..];
          pose proof (ext_order _ _ _ _ X); pose proof (ext_len _ _ _ _ X); lia. }
    destruct (Z.eqb_spec c 34) as [->|Hc34].
    { pose proof (p_string_refines s off' t H1) as PS.
      apply (refines_weaken _ _ _ off) in PS; [|lia|lia].
      assert (Hp : forall k, pbind (p_string s off') (fun '(str, _, e) s' => k str e s') =
                pbind (pbind (p_string s off') (fun '(str, _, e) s' => POk (str, e) s'))
                 (fun '(str, e) s' => k str e s' : pres (V * nat))).
      { intros k. destruct (p_string s off') as [[[? ?] ?] ?|? ?| |]; reflexivity. }
      rewrite Hp.
      apply (refines_bind _ _ (fun str r' => qd_arr f d r' (acc ++ [VStr str]))
               (fun str e s' => arr_loop_d E f d s' e (List.length (p_buf s)) (acc ++ [VStr str]))); [exact PS|].
      intros v rest e s' _ Hs' X. apply IHa; [assumption|..];
          pose proof (ext_order _ _ _ _ X); pose proof (ext_len _ _ _ _ X); lia. }
    pose proof (p_scalar_refines E s c off' t H1) as SC.
    destruct (q_scalar E c (c :: t)) as [q|].
    2:{ rewrite SC. now apply refines_err. }
    destruct SC as (p & -> & RF & _ & _).
    apply (refines_weaken _ _ _ off) in RF; [|lia|lia].
    apply refines_bind; [exact RF|].
    intros v rest e s' _ Hs' X. apply IHa; [assumption|..];
          pose proof (ext_order _ _ _ _ X); pose proof (ext_len _ _ _ _ X); lia.
  - intros s off right R obj key ks ke colon HR Hle Hright HK. subst right.
    cbn [qd_obj obj_loop_d].
    pose proof (skip_blanks_spec _ _ _ HR Hle) as SB.
    pose proof (skipn_len _ _ _ HR Hle) as HLR.
    destruct (Nat.ltb_spec off (List.length (p_buf s))) as [Hlt|Hge].
    2:{ destruct R; [|simpl in HLR; lia]. cbn [q_skip]. now apply refines_err. }
    destruct (q_skip R) as [|c t].
    { rewrite SB. cbn [lift]. now apply refines_err. }
    destruct SB as (off' & -> & H1 & H2 & H3). cbn [lift].
    rewrite (bget_skipn _ _ _ _ H1). cbn [lift].
    pose proof (skipn_S _ _ _ _ H1) as H4.
    assert (Hpool : forall (A : Type) (q : res (A * bytes)) p, refines q p (pool_get s) (S off') -> refines q p s off).
    { intros A q p. apply refines_pool; assumption. }
    assert (Hkey : (0 <? ke)%nat = match key with None => false | Some _ => true end).
    { destruct key; cbn [krel] in HK; [destruct HK; now apply Nat.ltb_lt|subst; reflexivity]. }
    assert (Hmiss : key_missing ke colon = match key with None => true | Some _ => negb colon end).
    { unfold key_missing. destruct key; cbn [krel] in HK; [|subst; reflexivity].
      destruct HK as [HK _]. destruct (Nat.eqb_spec ke 0); [lia|reflexivity]. }
    assert (Hmisst : key_missing ke true = match key with None => true | Some _ => false end).
    { unfold key_missing. destruct key; cbn [krel] in HK; [|subst; reflexivity].
      destruct HK as [HK _]. destruct (Nat.eqb_spec ke 0); [lia|reflexivity]. }
    rewrite Hkey, Hmiss, Hmisst.
    assert (Hstore : forall k, key = Some k -> forall v rest e s', skipn e (p_buf s') = rest -> ext s s' off e ->
       refines (let* obj' := set_to_object E obj k v in qd_obj f d rest obj' None false)
         (lift (bslice (p_buf s') ks ke) s' (fun key0 =>
          lift (set_to_object E obj key0 v) s' (fun obj' =>
          obj_loop_d E f d s' e (List.length (p_buf s)) obj' ks 0 false))) s' e).
    { intros k -> v rest e s' Hs' X. pose proof (ext_order _ _ _ _ X); pose proof (ext_len _ _ _ _ X).
      pose proof (krel_ext _ _ _ _ _ _ _ _ HK (le_n _) X) as HK'. destruct HK' as (K1 & K2 & K3 & K4).
      rewrite (bslice_ok _ _ _ k) by (try assumption; lia). cbn [lift].
      destruct (set_to_object E obj k v) as [obj'|er| |]; cbn [lift rbind].
      - apply IHo; [assumption|lia|lia|reflexivity].
      - apply refines_err; [lia|reflexivity].
      - reflexivity.
      - reflexivity. }
    destruct (c =? 125).
    { destruct key; [now apply refines_err|].
      exists (S off'), s. split; [reflexivity|]. split; [exact H4|]. apply ext_refl; lia. }
    destruct (c =? 44).
    { destruct key; [now apply refines_err|].
      eapply refines_weaken; [| |apply IHo; [exact H4|lia|reflexivity|exact HK]]; lia. }
    destruct (c =? 58).
    { destruct colon; [now apply refines_err|].
      destruct key; [|now apply refines_err]. cbn [negb].
      eapply refines_weaken; [| |apply IHo; [exact H4|lia|reflexivity|eapply krel_le; [exact HK|lia]]]; lia. }
    destruct (c =? 123).
    { destruct key as [k|]; [|now apply refines_err].
      destruct (negb colon); [now apply refines_err|].
      apply (refines_bind _ _ (fun v r' => let* obj' := set_to_object E obj k v in qd_obj f d r' obj' None false)
              (fun v e s' => lift (bslice (p_buf s') ks ke) s' (fun key0 =>
          lift (set_to_object E obj key0 v) s' (fun obj' =>
          obj_loop_d E f d s' e (List.length (p_buf s)) obj' ks 0 false)))).
      - apply Hpool. destruct d as [|d]; [reflexivity|]. cbn [deeper deeper_q]. apply IHo; try assumption; try reflexivity.
      - intros v rest e s' _ Hs' X. apply Hstore; auto. }
    destruct (c =? 91).
    { destruct key as [k|]; [|now apply refines_err].
      destruct (negb colon); [now apply refines_err|].
      apply (refines_bind _ _ (fun v r' => let* obj' := set_to_object E obj k v in qd_obj f d r' obj' None false)
              (fun v e s' => lift (bslice (p_buf s') ks ke) s' (fun key0 =>
          lift (set_to_object E obj key0 v) s' (fun obj' =>
          obj_loop_d E f d s' e (List.length (p_buf s)) obj' ks 0 false)))).
      - apply Hpool. destruct d as [|d]; [reflexivity|]. cbn [deeper deeper_q]. apply IHa; try assumption; try reflexivity.
      - intros v rest e s' _ Hs' X. apply Hstore; auto. }
    destruct (Z.eqb_spec c 34) as [->|Hc34].
    { destruct key as [k|].
      - destruct (negb colon); [now apply refines_err|].
        pose proof (p_string_refines s off' t H1) as PS.
        apply (refines_weaken _ _ _ off) in PS; [|lia|lia].
        assert (Hp : forall k, pbind (p_string s off') (fun '(str, _, e) s' => k str e s') =
                pbind (pbind (p_string s off') (fun '(str, _, e) s' => POk (str, e) s'))
                 (fun '(str, e) s' => k str e s' : pres (V * nat))).
        { intros k'. destruct (p_string s off') as [[[? ?] ?] ?|? ?| |]; reflexivity. }
        rewrite Hp.
        apply (refines_bind _ _ (fun str r' => let* obj' := set_to_object E obj k (VStr str) in qd_obj f d r' obj' None false)
              (fun str e s' => lift (bslice (p_buf s') ks ke) s' (fun key0 =>
          lift (set_to_object E obj key0 (VStr str)) s' (fun obj' =>
          obj_loop_d E f d s' e (List.length (p_buf s)) obj' ks 0 false)))); [exact PS|].
        intros v rest e s' _ Hs' X. apply Hstore; auto.
      - pose proof (p_string_spec s off' t H1) as PS.
        pose proof (p_string_refines s off' t H1) as PR.
        destruct (q_str (S (List.length t)) t) as [[str rest]|e| |]; try contradiction.
        + destruct PS as (e & s' & Hps & Q1 & Q2 & Q3 & Q4 & Q5 & Q6). rewrite Hps in *.
          cbn [pbind rbind] in *.
          destruct PR as (e2 & s2 & PR1 & PR2 & PR3). inversion PR1; subst e2 s2.
          apply (refines_ext _ _ s s' off e); [eapply ext_weaken; [|exact PR3]; lia|].
          pose proof (ext_order _ _ _ _ PR3). pose proof (ext_len _ _ _ _ PR3).
          apply IHo; [assumption|lia|lia|].
          cbn [krel]. repeat split; try lia.
          replace (S off' + List.length str - S off')%nat with (List.length str) by lia. exact Q4.
        + rewrite PS. cbn [pbind rbind]. now apply refines_err. }
    pose proof (p_scalar_refines E s c off' t H1) as SC.
    destruct (q_scalar E c (c :: t)) as [q|].
    2:{ rewrite SC. now apply refines_err. }
    destruct SC as (p & -> & RF & _ & _).
    destruct key as [k|]; [|now apply refines_err].
    destruct (negb colon); [now apply refines_err|].
    apply (refines_weaken _ _ _ off) in RF; [|lia|lia].
    apply (refines_bind _ _ (fun v r' => let* obj' := set_to_object E obj k v in qd_obj f d r' obj' None false)
              (fun v e s' => lift (bslice (p_buf s') ks ke) s' (fun key0 =>
          lift (set_to_object E obj key0 v) s' (fun obj' =>
          obj_loop_d E f d s' e (List.length (p_buf s)) obj' ks 0 false)))); [exact RF|].
    intros v rest e s' _ Hs' X. apply Hstore; auto.
Qed.

Lemma run_d_spec d b :
  match qd_unmarshal d b with
  | Ok v => exists s', unmarshal_iter_d E d (pst0 b) 0 = POk v s'
  | Err e => exists s', unmarshal_iter_d E d (pst0 b) 0 = PErr e s'
  | Panic => unmarshal_iter_d E d (pst0 b) 0 = PPanic
  | Fuel => unmarshal_iter_d E d (pst0 b) 0 = PFuel
  end.
Proof.
  assert (G : refines (let* v := qd_unmarshal d b in Ok (v, []))
                (match unmarshal_iter_d E d (pst0 b) 0 with
                 | POk v s' => POk (v, List.length b) s'
                 | PErr e s' => PErr e s'
                 | PPanic => PPanic
                 | PFuel => PFuel
                 end) (pst0 b) 0).
  { unfold unmarshal_iter_d, qd_unmarshal. cbn [pst0 p_buf].
    pose proof (skip_blanks_spec b 0 b eq_refl ltac:(lia)) as SB.
    destruct (q_skip b) as [|c t].
    { rewrite SB. cbn [lift rbind]. apply refines_err; [cbn; lia|reflexivity]. }
    destruct SB as (off & -> & H1 & H2 & H3). cbn [lift].
    rewrite (bget_skipn _ _ _ _ H1). cbn [lift].
    pose proof (skipn_S _ _ _ _ H1) as H4.
    set (fuel := S (List.length b)).
    set (r := if c =? 123 then deeper d (fun d' => obj_loop_d E fuel d' (pool_get (pst0 b)) (S off) (List.length b) new_object 0 0 false)
              else if c =? 91 then deeper d (fun d' => arr_loop_d E fuel d' (pool_get (pst0 b)) (S off) (List.length b) [])
              else if c =? 34 then pbind (p_string (pst0 b) off) (fun '(str, _, e) s' => POk (VStr str, e) s')
              else match p_scalar E (pst0 b) c off with
                   | Some r => r
                   | None => PErr ErrRawBytesUnrecognized (pst0 b)
                   end).
    assert (RV : refines (qd_value fuel d c t) r (pst0 b) 0).
    { unfold qd_value, q_value, r.
      pose proof (fun d0 => proj1 (loops_refine_d fuel d0)) as La. pose proof (fun d0 => proj2 (loops_refine_d fuel d0)) as Lo.
      destruct (c =? 123) eqn:E123.
      { destruct d as [|d]; [reflexivity|]. cbn [deeper deeper_q].
        apply (refines_pool _ _ _ 0 off); [lia|cbn; lia|].
        apply Lo; [exact H4|cbn; lia|reflexivity|reflexivity]. }
      destruct (c =? 91) eqn:E91.
      { destruct d as [|d]; [reflexivity|]. cbn [deeper deeper_q].
        apply (refines_pool _ _ _ 0 off); [lia|cbn; lia|].
        apply La; [exact H4|cbn; lia|reflexivity]. }
      destruct (Z.eqb_spec c 34) as [->|].
      { pose proof (p_string_refines (pst0 b) off t H1) as PS.
        apply (refines_weaken _ _ _ 0) in PS; [|lia|cbn; lia].
        destruct (p_string (pst0 b) off) as [[[str ?] e] s'|er s'| |]; cbn [pbind] in *;
        destruct (q_str (S (List.length t)) t) as [[str' rest]|er'| |]; cbn [rbind refines] in *.
        all: try discriminate; try tauto.
        all: first [ destruct PS as (e' & s2 & PE & PS2); inversion PE; subst; eauto; fail
                   | destruct PS as (s2 & PE & PS2); inversion PE; subst; eauto; fail ]. }
      pose proof (p_scalar_refines E (pst0 b) c off t H1) as SC.
      destruct (q_scalar E c (c :: t)) as [q|].
      - destruct SC as (p & SC1 & SC2 & _). rewrite SC1.
        eapply refines_weaken; [| |exact SC2]; cbn; lia.
      - rewrite SC. apply refines_err; [cbn; lia|reflexivity]. }
    unfold refines in RV.
    destruct (qd_value fuel d c t) as [[v rest]|er| |]; cbn [rbind].
    2:{ destruct RV as (s' & -> & RV). cbn [pbind]. exists s'. split; [reflexivity|exact RV]. }
    2:{ rewrite RV. reflexivity. }
    2:{ rewrite RV. reflexivity. }
    destruct RV as (e & s' & -> & RV1 & RV2). cbn [pbind].
    pose proof (ext_len _ _ _ _ RV2) as HL. pose proof (ext_order _ _ _ _ RV2) as HO.
    cbn [pst0 p_buf] in HL, HO.
    pose proof (skip_blanks_spec (p_buf s') e rest RV1 ltac:(lia)) as SB. rewrite HL in SB.
    destruct (q_skip rest) as [|c' t'].
    - rewrite SB. cbn [lift]. cbn [rbind]. exists (List.length b), s'. split; [reflexivity|].
      split; [apply skipn_all2; lia|].
      eapply ext_trans; [exact RV2|]. apply ext_refl; lia.
    - destruct SB as (o2 & -> & _). cbn [lift rbind]. exists s'. split; [reflexivity|].
      pose proof (ext_act _ _ _ _ RV2). cbn [pst0 p_act p_buf] in *. lia. }
  destruct (qd_unmarshal d b) as [v|e| |]; cbn [rbind refines] in G;
    destruct (unmarshal_iter_d E d (pst0 b) 0); try discriminate G;
    try (destruct G as (? & ? & G & _)); try (destruct G as (? & G & _)); try discriminate G;
    try (injection G as <-); try (injection G as -> _ _); eauto; inversion G; subst; eauto.
Qed.

(** *** Enough stack: as without the limit *)

Lemma qd_or f : forall d,
  (forall r acc, qd_arr f d r acc = q_arr E f r acc \/ qd_arr f d r acc = Panic) /\
  (forall r obj key colon, qd_obj f d r obj key colon = q_obj E f r obj key colon \/ qd_obj f d r obj key colon = Panic).
Proof.
  induction f as [|f IH]; intros d; [split; intros; left; reflexivity|].
  assert (DA : forall t, deeper_q d (fun d' => qd_arr f d' t []) = q_arr E f t [] \/ deeper_q d (fun d' => qd_arr f d' t []) = Panic).
  { intros t. destruct d as [|d]; [right; reflexivity|apply (IH d)]. }
  assert (DO : forall t, deeper_q d (fun d' => qd_obj f d' t new_object None false) = q_obj E f t new_object None false
                       \/ deeper_q d (fun d' => qd_obj f d' t new_object None false) = Panic).
  { intros t. destruct d as [|d]; [right; reflexivity|apply (IH d)]. }
  specialize (IH d). destruct IH as [IHa IHo]. split.
  - intros r acc. rewrite qd_arr_S, q_arr_S. destruct (q_skip r) as [|c t]; [auto|].
    destruct (c =? 93); [auto|]. destruct (c =? 44); [auto|].
    destruct (c =? 123).
    { destruct (DO t) as [->| ->]; [|right; reflexivity]. destruct (q_obj E f t new_object None false) as [[v r']|e| |]; cbn [rbind]; auto. }
    destruct (c =? 91).
    { destruct (DA t) as [->| ->]; [|right; reflexivity]. destruct (q_arr E f t []) as [[v r']|e| |]; cbn [rbind]; auto. }
    destruct (c =? 34).
    { destruct (q_str _ t) as [[v r']|e| |]; cbn [rbind]; auto. }
    destruct (q_scalar E c (c :: t)) as [[[v r']|e| |]|]; cbn [rbind]; auto.
  - intros r obj key colon. rewrite qd_obj_S, q_obj_S. destruct (q_skip r) as [|c t]; [auto|]. cbv zeta.
    assert (St : forall w r1,
       match key with None => Panic | Some k => let* obj' := set_to_object E obj k w in qd_obj f d r1 obj' None false end =
       match key with None => Panic | Some k => let* obj' := set_to_object E obj k w in q_obj E f r1 obj' None false end \/
       match key with None => Panic | Some k => let* obj' := set_to_object E obj k w in qd_obj f d r1 obj' None false end = Panic).
    { intros w r1. destruct key as [k|]; [|auto]. destruct (set_to_object E obj k w); cbn [rbind]; auto. }
    destruct (c =? 125); [auto|]. destruct (c =? 44); [destruct (match key with None => _ | _ => _ end); auto|].
    destruct (c =? 58); [destruct colon; [auto|]; destruct (negb _); auto|].
    destruct (c =? 123).
    { destruct (match key with None => true | Some _ => negb colon end); [auto|].
      destruct (DO t) as [->| ->]; [|right; reflexivity]. destruct (q_obj E f t new_object None false) as [[v r']|e| |]; cbn [rbind]; auto. }
    destruct (c =? 91).
    { destruct (match key with None => true | Some _ => negb colon end); [auto|].
      destruct (DA t) as [->| ->]; [|right; reflexivity]. destruct (q_arr E f t []) as [[v r']|e| |]; cbn [rbind]; auto. }
    destruct (c =? 34).
    { destruct (match key with None => false | Some _ => true end).
      - destruct (negb colon); [auto|]. destruct (q_str _ t) as [[v r']|e| |]; cbn [rbind]; auto.
      - destruct (q_str _ t) as [[v r']|e| |]; cbn [rbind]; auto. }
    destruct (q_scalar E c (c :: t)) as [m|]; [|auto].
    destruct (match key with None => true | Some _ => negb colon end); [auto|].
    destruct m as [[v r']|e| |]; cbn [rbind]; auto.
Qed.

Lemma qd_value_or f d c t : qd_value f d c t = q_value E f c t \/ qd_value f d c t = Panic.
Proof.
  unfold qd_value. destruct (c =? 123) eqn:E1.
  { unfold q_value. rewrite E1. destruct d as [|d]; [right; reflexivity|apply (qd_or f d)]. }
  destruct (c =? 91) eqn:E2; [|left; reflexivity].
  unfold q_value. rewrite E1, E2. destruct d as [|d]; [right; reflexivity|apply (qd_or f d)].
Qed.

Lemma qd_unmarshal_or d b : qd_unmarshal d b = q_unmarshal E b \/ qd_unmarshal d b = Panic.
Proof.
  unfold qd_unmarshal, q_unmarshal. destruct (q_skip b) as [|c t]; [auto|].
  destruct (qd_value_or (S (List.length b)) d c t) as [->| ->]; [left|right]; reflexivity.
Qed.

(** *** Where the stack ends *)

Lemma qd_arr_value f d r acc c t :
  q_skip r = c :: t -> vstart c ->
  qd_arr (S f) d r acc = (let* (v, r') := qd_value f d c t in qd_arr f d r' (acc ++ [v])).
Proof.
  intros Hs Hv. rewrite qd_arr_S, Hs.
  destruct (vstart_props c Hv) as (_ & -> & -> & _ & _). unfold qd_value, q_value.
  destruct (Z.eqb_spec c 123); [reflexivity|].
  destruct (Z.eqb_spec c 91); [reflexivity|].
  destruct (Z.eqb_spec c 34).
  - destruct (q_str (S (List.length t)) t) as [[x r']|e'| |]; reflexivity.
  - pose proof (q_scalar_vstart E c (c :: t) Hv ltac:(assumption) ltac:(assumption) ltac:(assumption)).
    destruct (q_scalar E c (c :: t)); [reflexivity|congruence].
Qed.
Lemma qd_obj_value f d r obj k c t :
  q_skip r = c :: t -> vstart c ->
  qd_obj (S f) d r obj (Some k) true =
  (let* (v, r') := qd_value f d c t in
   let* obj' := set_to_object E obj k v in qd_obj f d r' obj' None false).
Proof.
  intros Hs Hv. rewrite qd_obj_S, Hs. cbv zeta.
  destruct (vstart_props c Hv) as (_ & _ & -> & -> & ->). unfold qd_value, q_value. cbn [negb].
  destruct (Z.eqb_spec c 123); [reflexivity|].
  destruct (Z.eqb_spec c 91); [reflexivity|].
  destruct (Z.eqb_spec c 34).
  - destruct (q_str (S (List.length t)) t) as [[x r']|e'| |]; reflexivity.
  - pose proof (q_scalar_vstart E c (c :: t) Hv ltac:(assumption) ltac:(assumption) ltac:(assumption)).
    destruct (q_scalar E c (c :: t)); [reflexivity|congruence].
Qed.

Definition at_opens (key : option bytes) (colon : bool) (r : bytes) (n : nat) : Prop :=
  match key with
  | None => obj_opens r n
  | Some _ =>
    if colon then
      forall w1 tk k w2, lblanks w1 -> lstr tk k -> lblanks w2 -> obj_opens (w1 ++ 34 :: tk ++ 34 :: w2 ++ 58 :: r) n
    else forall w1 tk k, lblanks w1 -> lstr tk k -> obj_opens (w1 ++ 34 :: tk ++ 34 :: r) n
  end.

Lemma lblanks_app a b : lblanks a -> lblanks b -> lblanks (a ++ b).
Proof. intros H1 H2. apply Forall_app. split; assumption. Qed.

Lemma q_str_no_panic t : q_str (S (List.length t)) t <> Panic.
Proof. destruct (q_str_total (S (List.length t)) t ltac:(lia)) as [(x & r1 & ->)|(e & ->)]; discriminate. Qed.
Lemma q_scalar_no_panic c t : q_scalar E c (c :: t) <> Some Panic.
Proof. intros H. destruct (q_scalar_total E _ _ _ H) as [(v & rest & X & _)|(e & X)]; discriminate. Qed.

Lemma opens_of f : forall d,
  (forall r acc, Forall is_byte r -> qd_arr f d r acc = Panic -> arr_opens r (S d)) /\ (
  forall r obj key colon, Forall is_byte r -> is_obj obj -> (key = None -> colon = false) ->
     qd_obj f d r obj key colon = Panic -> at_opens key colon r (S d)).
Proof.
  induction f as [|f IH]; intros d; [split; intros; discriminate|]. destruct (parse_sound E f) as [PA PO].
  assert (DA : forall t, Forall is_byte t ->
     (deeper_q d (fun d' => qd_arr f d' t []) = Panic -> val_opens (91 :: t) (S d)) /\ (
      forall w1 r1, deeper_q d (fun d' => qd_arr f d' t []) = Ok (w1, r1) -> q_arr E f t [] = Ok (w1, r1))).
  { intros t Hb. split.
    - intros H. constructor. destruct d as [|d]; [constructor|]. now apply (proj1 (IH d)) in H.
    - intros w1 r1 H. destruct d as [|d]; [discriminate|]. cbn [deeper_q] in H.
      destruct (proj1 (qd_or f d) t []) as [Q|Q]; congruence. }
  assert (DO : forall t, Forall is_byte t ->
     (deeper_q d (fun d' => qd_obj f d' t new_object None false) = Panic -> val_opens (123 :: t) (S d)) /\ (
      forall w1 r1, deeper_q d (fun d' => qd_obj f d' t new_object None false) = Ok (w1, r1) -> q_obj E f t new_object None false = Ok (w1, r1))).
  { intros t Hb. split.
    - intros H. constructor. destruct d as [|d]; [constructor|].
      apply (proj2 (IH d)) in H; [exact H|assumption|repeat eexists|auto].
    - intros w1 r1 H. destruct d as [|d]; [discriminate|]. cbn [deeper_q] in H.
      destruct (proj2 (qd_or f d) t new_object None false) as [Q|Q]; congruence. }
  destruct (IH d) as [IHa IHo]. clear IH. split.
  - intros r acc Hb H. rewrite qd_arr_S in H.
    destruct (q_skip_inv r) as (w & Hr & Hw). destruct (q_skip r) as [|c t] eqn:Eq; [discriminate|].
    assert (Hbt : Forall is_byte (c :: t)) by (rewrite Hr in Hb; apply Forall_app in Hb; tauto).
    inversion Hbt as [|? ? Hbc Hbt']; subst x l. apply q_skip_head in Eq.
    assert (K : forall tv j r1 w1, c :: t = tv ++ r1 -> lval tv j -> after_num j r1 ->
              qd_arr f d r1 (acc ++ [w1]) = Panic -> arr_opens r (S d)).
    { intros tv j r1 w1 Et Hv Han H1. rewrite Hr, Et. eapply AO_later; try eassumption. eapply IHa; [|eassumption].
      rewrite Et in Hbt. apply Forall_app in Hbt. tauto. }
    destruct (Z.eqb_spec c 93) as [->|N93]; [discriminate|].
    destruct (Z.eqb_spec c 44) as [->|N44].
    { rewrite Hr. apply AO_comma; [assumption|]. eapply IHa; eassumption. }
    destruct (Z.eqb_spec c 123) as [->|N123].
    { destruct (DO t Hbt') as [D1 D2].
      destruct (deeper_q d _) as [[w1 r1]|e1| |] eqn:Eo; cbn [rbind] in H; try discriminate.
      - specialize (D2 _ _ eq_refl). apply PO in D2; [|assumption|repeat eexists|auto]. destruct D2 as (tm & l & -> & Hm & ->).
        apply (K (123 :: tm ++ [125]) (JObj l) r1 _ ltac:(cbn; now rewrite <- app_assoc) (LV_obj _ _ Hm) I H).
      - rewrite Hr. apply AO_value; auto. }
    destruct (Z.eqb_spec c 91) as [->|N91].
    { destruct (DA t Hbt') as [D1 D2].
      destruct (deeper_q d _) as [[w1 r1]|e1| |] eqn:Eo; cbn [rbind] in H; try discriminate.
      - specialize (D2 _ _ eq_refl). apply PA in D2; [|assumption]. destruct D2 as (tm & l & -> & Hm & ->).
        apply (K (91 :: tm ++ [93]) (JArr l) r1 _ ltac:(cbn; now rewrite <- app_assoc) (LV_arr _ _ Hm) I H).
      - rewrite Hr. apply AO_value; auto. }
    destruct (Z.eqb_spec c 34) as [->|N34].
    { pose proof (q_str_no_panic t) as NP.
      destruct (q_str _ t) as [[w1 r1]|e1| |] eqn:Eo; cbn [rbind] in H; try discriminate; [|congruence].
      apply q_str_sound in Eo; [|assumption]. destruct Eo as (ts & -> & Hs).
      apply (K (34 :: ts ++ [34]) (JStr w1) r1 _ ltac:(cbn; now rewrite <- app_assoc) (LV_str _ _ Hs) I H). }
    pose proof (q_scalar_no_panic c t) as NP.
    destruct (q_scalar E c (c :: t)) as [[[w1 r1]|e1| |]|] eqn:Eo; cbn [rbind] in H; try discriminate; [|congruence].
    apply q_scalar_sound in Eo as (ts & j & Et & Hv & -> & Han). apply (K ts j r1 _ Et Hv Han H).
  - intros r obj key colon Hb Ho Hkc H. rewrite qd_obj_S in H.
    destruct (q_skip_inv r) as (w & Hr & Hw). destruct (q_skip r) as [|c t] eqn:Eq; [discriminate|].
    assert (Hbt : Forall is_byte (c :: t)) by (rewrite Hr in Hb; apply Forall_app in Hb; tauto).
    inversion Hbt as [|? ? Hbc Hbt']; subst x l. apply q_skip_head in Eq.
    set (store := fun (w : V) (r1 : bytes) => match key with None => Panic | Some k => let* obj' := set_to_object E obj k w in qd_obj f d r1 obj' None false end) in H. cbv zeta in H.
    assert (K : forall k tv j r1 w1, key = Some k -> colon = true -> c :: t = tv ++ r1 -> lval tv j -> w1 = to_V E j -> after_num j r1 ->
              store w1 r1 = Panic -> at_opens key colon r (S d)).
    { intros k tv j r1 w1 -> -> Et Hv -> Han H1. unfold store in H1.
      destruct (oput_set E obj k (to_V E j) Ho) as [Eo Ho']. rewrite Eo in H1. cbn [rbind] in H1.
      assert (Hb1 : Forall is_byte r1) by (rewrite Et in Hbt; apply Forall_app in Hbt; tauto).
      cbn. intros w1 tk k' w2 Hw1 Hk Hw2. rewrite Hr, Et. eapply OO_later; try eassumption.
      apply (IHo _ _ None false Hb1 Ho' ltac:(auto) H1). }
    assert (KV : forall k, key = Some k -> colon = true -> val_opens (c :: t) (S d) -> at_opens key colon r (S d)).
    { intros k -> -> Hv. cbn. intros w1 tk k' w2 Hw1 Hk Hw2. rewrite Hr. eapply OO_value; eassumption. }
    destruct (Z.eqb_spec c 125) as [->|N125].
    { destruct key as [k|]; discriminate. }
    destruct (Z.eqb_spec c 44) as [->|N44].
    { destruct key as [k|]; [discriminate|].
      cbn. rewrite Hr. apply OO_comma; [assumption|]. apply (IHo _ _ _ _ Hbt' Ho Hkc H). }
    destruct (Z.eqb_spec c 58) as [->|N58].
    { destruct colon; [discriminate|]. destruct key as [k|]; [|discriminate].
      cbn. intros w1 tk k' Hw1 Hk. rewrite Hr.
      apply (IHo t obj (Some k) true Hbt' Ho ltac:(discriminate) H w1 tk k' w); assumption. }
    destruct (Z.eqb_spec c 123) as [->|N123].
    { destruct (match key with None => true | Some _ => negb colon end) eqn:Em; [discriminate|].
      destruct key as [k|]; [|discriminate]. assert (colon = true) by now destruct colon.
      destruct (DO t Hbt') as [D1 D2].
      destruct (deeper_q d _) as [[w1 r1]|e1| |] eqn:Eo; cbn [rbind] in H; try discriminate.
      - specialize (D2 _ _ eq_refl). apply PO in D2; [|assumption|repeat eexists|auto]. destruct D2 as (tm & l & -> & Hm & ->).
        apply (K k (123 :: tm ++ [125]) (JObj l) r1 _ eq_refl ltac:(assumption) ltac:(cbn; now rewrite <- app_assoc) (LV_obj _ _ Hm) eq_refl I H).
      - apply (KV k); auto. }
    destruct (Z.eqb_spec c 91) as [->|N91].
    { destruct (match key with None => true | Some _ => negb colon end) eqn:Em; [discriminate|].
      destruct key as [k|]; [|discriminate]. assert (colon = true) by now destruct colon.
      destruct (DA t Hbt') as [D1 D2].
      destruct (deeper_q d _) as [[w1 r1]|e1| |] eqn:Eo; cbn [rbind] in H; try discriminate.
      - specialize (D2 _ _ eq_refl). apply PA in D2; [|assumption]. destruct D2 as (tm & l & -> & Hm & ->).
        apply (K k (91 :: tm ++ [93]) (JArr l) r1 _ eq_refl ltac:(assumption) ltac:(cbn; now rewrite <- app_assoc) (LV_arr _ _ Hm) eq_refl I H).
      - apply (KV k); auto. }
    destruct (Z.eqb_spec c 34) as [->|N34].
    { pose proof (q_str_no_panic t) as NP. destruct key as [k|].
      - destruct (negb colon) eqn:Ec; [discriminate|]. assert (colon = true) by now destruct colon.
        destruct (q_str _ t) as [[w1 r1]|e1| |] eqn:Eo; cbn [rbind] in H; try discriminate; [|congruence].
        apply q_str_sound in Eo; [|assumption]. destruct Eo as (ts & -> & Hs).
        apply (K k (34 :: ts ++ [34]) (JStr w1) r1 _ eq_refl ltac:(assumption) ltac:(cbn; now rewrite <- app_assoc) (LV_str _ _ Hs) eq_refl I H).
      - rewrite (Hkc eq_refl) in *.
        destruct (q_str _ t) as [[k r1]|e1| |] eqn:Eo; cbn [rbind] in H; try discriminate; [|congruence].
        apply q_str_sound in Eo; [|assumption]. destruct Eo as (ts & -> & Hs).
        apply Forall_app in Hbt' as [_ Hb1]. apply Forall_inv_tail in Hb1.
        cbn. rewrite Hr.
        apply (IHo r1 obj (Some k) false Hb1 Ho ltac:(discriminate) H w ts k); assumption. }
    pose proof (q_scalar_no_panic c t) as NP.
    destruct (q_scalar E c (c :: t)) as [m|] eqn:Eo; [|discriminate].
    destruct (match key with None => true | Some _ => negb colon end) eqn:Em; [discriminate|].
    destruct key as [k|]; [|discriminate]. assert (colon = true) by now destruct colon.
    destruct m as [[w1 r1]|e1| |]; cbn [rbind] in H; try discriminate; [|congruence].
    apply q_scalar_sound in Eo as (ts & j & Et & Hv & -> & Han).
    apply (K k ts j r1 _ eq_refl ltac:(assumption) Et Hv eq_refl Han H).
Qed.

Lemma qd_value_cases t j r f d : lval t j -> after_num j r ->
  exists c t', t = c :: t' /\ vstart c /\ (
    (List.length (t' ++ r) < f)%nat -> qd_value f d c (t' ++ r) = Ok (to_V E j, r) \/ qd_value f d c (t' ++ r) = Panic).
Proof.
  intros Hl Ha. destruct (q_value_ok E t j r f Hl Ha) as (c & t' & -> & Hc & HV).
  exists c, t'. split; [reflexivity|]. split; [assumption|]. intros Hf.
  destruct (qd_value_or f d c (t' ++ r)) as [->| ->]; [left; auto|right; reflexivity].
Qed.

Ltac lens := repeat (rewrite app_length in * || cbn [List.length] in * ); lia.

Lemma member_panic f d w1 tk k w2 w3 c t obj : is_obj obj ->
  lblanks w1 -> lstr tk k -> lblanks w2 -> lblanks w3 -> vstart c ->
  (List.length (w1 ++ 34%Z :: tk ++ 34%Z :: w2 ++ 58%Z :: w3 ++ c :: t) < f)%nat ->
  exists f', (List.length t < f')%nat /\
    qd_obj f d (w1 ++ 34 :: tk ++ 34 :: w2 ++ 58 :: w3 ++ c :: t) obj None false =
    (let* (v, r') := qd_value f' d c t in
     let* obj' := set_to_object E obj k v in qd_obj f' d r' obj' None false).
Proof.
  intros Ho Hw1 Hk Hw2 Hw3 Hc Hf.
  assert (Hl : (List.length w1 + List.length tk + List.length w2 + List.length w3 + List.length t + 4 < f)%nat) by lens.
  destruct f as [|[|[|f]]]; try lia. exists f. split; [lia|].
  rewrite qd_obj_S, q_skip_lblanks by assumption.
  rewrite (q_skip_here 34) by reflexivity. cbn zeta iota.
  change (34 =? 125) with false. change (34 =? 44) with false. change (34 =? 58) with false.
  change (34 =? 123) with false. change (34 =? 91) with false. change (34 =? 34) with true. cbn iota.
  rewrite (q_str_lax tk k Hk) by (rewrite app_length; lia). cbn [rbind].
  rewrite qd_obj_S, q_skip_lblanks by assumption.
  rewrite (q_skip_here 58) by reflexivity. cbn zeta iota.
  change (58 =? 125) with false. change (58 =? 44) with false. change (58 =? 58) with true.
  cbn [negb]. cbn iota.
  apply qd_obj_value; [|assumption]. rewrite q_skip_lblanks by assumption. apply q_skip_here. now apply vstart_blank.
Qed.

Lemma opens_panic :
  (forall r n, val_opens r n -> exists c t, r = c :: t /\ vstart c /\
     forall f d, (d < n)%nat -> (List.length t < f)%nat -> qd_value f d c t = Panic) /\ (
  (forall r n, arr_opens r n -> forall f d acc, (d < n)%nat -> (List.length r < f)%nat -> qd_arr f d r acc = Panic) /\ (
   forall r n, obj_opens r n -> forall f d obj, is_obj obj -> (d < n)%nat -> (List.length r < f)%nat -> qd_obj f d r obj None false = Panic)).
Proof.
  apply opens_mutind.
  - intros r n _ IH. exists 91, r. split; [reflexivity|]. split; [unfold vstart; auto 10|]. intros f d Hd Hf.
    unfold qd_value. change (91 =? 123) with false. change (91 =? 91) with true. cbn iota.
    destruct d as [|d]; [reflexivity|]. apply IH; [lia|assumption].
  - intros r n _ IH. exists 123, r. split; [reflexivity|]. split; [unfold vstart; auto 10|]. intros f d Hd Hf.
    unfold qd_value. change (123 =? 123) with true. cbn iota.
    destruct d as [|d]; [reflexivity|]. apply IH; [repeat eexists|lia|assumption].
  - intros; lia.
  - intros w r n Hw _ IH f d acc Hd Hf. destruct f as [|f]; [lia|].
    destruct IH as (c & t & -> & Hc & HV).
    rewrite (qd_arr_value f d _ acc c t); [|rewrite q_skip_lblanks by assumption; apply q_skip_here; now apply vstart_blank|assumption].
    rewrite HV; [reflexivity|assumption|lens].
  - intros w r n Hw _ IH f d acc Hd Hf. destruct f as [|f]; [lia|].
    rewrite qd_arr_S, q_skip_lblanks by assumption. rewrite (q_skip_here 44) by reflexivity.
    change (44 =? 93) with false. change (44 =? 44) with true. cbn iota. apply IH; [assumption|lens].
  - intros w t j r n Hw Hl Ha _ IH f d acc Hd Hf. destruct f as [|f]; [lia|].
    destruct (qd_value_cases t j r f d Hl Ha) as (c & t' & -> & Hc & HV). cbn [app].
    rewrite (qd_arr_value f d _ acc c (t' ++ r)); [|rewrite q_skip_lblanks by assumption; apply q_skip_here; now apply vstart_blank|assumption].
    destruct HV as [->| ->]; [lens| |reflexivity]. cbn [rbind]. apply IH; [assumption|lens].
  - intros; lia.
  - intros w1 tk k w2 w3 r n Hw1 Hk Hw2 Hw3 _ IH f d obj Ho Hd Hf.
    destruct IH as (c & t & -> & Hc & HV).
    destruct (member_panic f d w1 tk k w2 w3 c t obj Ho Hw1 Hk Hw2 Hw3 Hc Hf) as (f' & Hf' & ->).
    rewrite HV; [reflexivity|assumption|assumption].
  - intros w r n Hw _ IH f d obj Ho Hd Hf. destruct f as [|f]; [lia|].
    rewrite qd_obj_S, q_skip_lblanks by assumption. rewrite (q_skip_here 44) by reflexivity. cbn zeta iota.
    change (44 =? 125) with false. change (44 =? 44) with true. cbn iota. apply IH; [assumption|assumption|lens].
  - intros w1 tk k w2 w3 t j r n Hw1 Hk Hw2 Hw3 Hl Ha _ IH f d obj Ho Hd Hf.
    destruct (q_value_ok E t j r 0 Hl Ha) as (c & t' & -> & Hc & _). cbn [app] in *.
    destruct (member_panic f d w1 tk k w2 w3 c (t' ++ r) obj Ho Hw1 Hk Hw2 Hw3 Hc Hf) as (f' & Hf' & ->).
    destruct (qd_value_cases (c :: t') j r f' d Hl Ha) as (c2 & t2 & E2 & _ & HV). injection E2 as <- <-.
    destruct (HV Hf') as [->| ->]; [|reflexivity]. cbn [rbind].
    destruct (oput_set E obj k (to_V E j) Ho) as [-> Ho']. cbn [rbind]. apply IH; [assumption|assumption|lens].
Qed.

Lemma qd_unmarshal_panic d b : Forall is_byte b -> (qd_unmarshal d b = Panic <-> doc_opens b (S d)).
Proof.
  intros Hb. unfold qd_unmarshal. split.
  - intros H. destruct (q_skip_inv b) as (w & Hr & Hw). destruct (q_skip b) as [|c t] eqn:Eq; [discriminate|].
    assert (Hbt : Forall is_byte (c :: t)) by (rewrite Hr in Hb; apply Forall_app in Hb; tauto).
    inversion Hbt as [|? ? Hbc Hbt']; subst x l. rewrite Hr. constructor; [assumption|].
    destruct (qd_value (S (List.length b)) d c t) as [[v r1]|e| |] eqn:Ev; cbn [rbind] in H; try discriminate.
    { destruct (q_skip r1); discriminate. }
    unfold qd_value in Ev.
    destruct (Z.eqb_spec c 123) as [->|N123].
    { constructor. destruct d as [|d]; [constructor|]. cbn [deeper_q] in Ev.
      apply (proj2 (opens_of _ d)) in Ev; [exact Ev|assumption|repeat eexists|auto]. }
    destruct (Z.eqb_spec c 91) as [->|N91].
    { constructor. destruct d as [|d]; [constructor|]. cbn [deeper_q] in Ev.
      apply (proj1 (opens_of _ d)) in Ev; assumption. }
    exfalso. pose proof (q_skip_length b) as HL. rewrite Eq in HL. cbn [List.length] in HL.
    destruct (q_value_total E (S (List.length b)) c t ltac:(lia)) as [(? & ? & Q & _)|(? & Q)]; congruence.
  - intros H. inversion H as [w r n Hw Hv]; subst. apply (proj1 opens_panic) in Hv as (c & t & -> & Hc & HV).
    rewrite q_skip_lblanks by assumption. rewrite q_skip_here by now apply vstart_blank.
    rewrite HV; [reflexivity|lia|lens].
Qed.

(** *** Documents *)

Definition deepest (l : list jv) : nat := fold_right (fun x n => Nat.max (nesting x) n) 0%nat l.
Definition deepest_m (l : list (bytes * jv)) : nat := fold_right (fun kx n => Nat.max (nesting (snd kx)) n) 0%nat l.

Lemma leb_max a b d : (Nat.max a b <=? d)%nat = ((a <=? d)%nat && (b <=? d)%nat).
Proof. destruct (Nat.leb_spec a d), (Nat.leb_spec b d), (Nat.leb_spec (Nat.max a b) d); cbn; try reflexivity; lia. Qed.

Definition value_nested (t : bytes) (j : jv) : Prop :=
  exists c t', t = c :: t' /\ vstart c /\
    forall f d rest, after_num j rest -> (List.length (t' ++ rest) < f)%nat ->
      qd_value f d c (t' ++ rest) = if (nesting j <=? d)%nat then Ok (to_V E j, rest) else Panic.

Lemma flat_value t j : lval t j -> nesting j = 0%nat ->
  (forall t', t <> 123 :: t') -> (forall t', t <> 91 :: t') -> value_nested t j.
Proof.
  intros Hl Hn N1 N2. destruct (proj1 (lax_complete E) t j Hl) as (c & t' & -> & Hc & HV).
  exists c, t'. split; [reflexivity|]. split; [assumption|]. intros f d rest Ha Hf. rewrite Hn. cbn [Nat.leb].
  unfold qd_value. destruct (Z.eqb_spec c 123) as [->|]; [now elim (N1 t')|].
  destruct (Z.eqb_spec c 91) as [->|]; [now elim (N2 t')|]. now apply HV.
Qed.

Lemma nested_complete :
  (forall t j, lval t j -> value_nested t j) /\ (
  (forall t l, lelems t l -> forall f d rest acc,
     (List.length (t ++ 93%Z :: rest) < f)%nat ->
     qd_arr f d (t ++ 93 :: rest) acc =
     if (deepest l <=? d)%nat then Ok (VArr (acc ++ map (to_V E) l), rest) else Panic) /\ (
   forall t l, lmembers t l -> forall f d rest obj,
     is_obj obj -> (List.length (t ++ 125%Z :: rest) < f)%nat ->
     qd_obj f d (t ++ 125 :: rest) obj None false =
     if (deepest_m l <=? d)%nat then Ok (put_all E l obj, rest) else Panic)).
Proof.
  apply lax_mutind.
  - apply flat_value; [constructor|reflexivity|discriminate|discriminate].
  - apply flat_value; [constructor|reflexivity|discriminate|discriminate].
  - apply flat_value; [constructor|reflexivity|discriminate|discriminate].
  - intros lit HL. destruct (lax_num_head _ HL) as (c & t' & Ec & Hc).
    apply flat_value; [now constructor|reflexivity| |]; intros t2 E2; rewrite E2 in Ec; injection Ec as <- _; discriminate.
  - intros t s0 HS. apply flat_value; [now constructor|reflexivity|discriminate|discriminate].
  - intros t l Hl IH.
    exists 91, (t ++ [93]). split; [reflexivity|]. split; [unfold vstart; auto 10|].
    intros f d rest _ Hf. rewrite <- app_assoc in *. cbn [app] in *. unfold qd_value.
    change (91 =? 123) with false. change (91 =? 91) with true. cbn iota.
    destruct d as [|d]; [reflexivity|]. cbn [deeper_q]. rewrite IH by assumption. reflexivity.
  - intros t l Hl IH.
    exists 123, (t ++ [125]). split; [reflexivity|]. split; [unfold vstart; auto 10|].
    intros f d rest _ Hf. rewrite <- app_assoc in *. cbn [app] in *. unfold qd_value.
    change (123 =? 123) with true. cbn iota.
    destruct d as [|d]; [reflexivity|]. cbn [deeper_q]. rewrite IH; [reflexivity|repeat eexists|assumption].
  - (* end *)
    intros w Hw f d rest acc Hf. destruct f as [|f]; [lia|]. rewrite qd_arr_S, q_skip_lblanks by assumption.
    rewrite (q_skip_here 93) by reflexivity. cbn [map]. rewrite app_nil_r. reflexivity.
  - (* comma *)
    intros w t l Hw Hl IH f d rest acc Hf. repeat (rewrite <- app_assoc in * || cbn [app] in * ).
    rewrite app_length in Hf. cbn [List.length] in Hf.
    destruct f as [|f]; [lia|]. rewrite qd_arr_S, q_skip_lblanks by assumption.
    rewrite (q_skip_here 44) by reflexivity.
    change (44 =? 93) with false. change (44 =? 44) with true. cbn iota. apply IH. lia.
  - (* element *)
    intros w t j te l Hw Hj IH Han Hl IHl f d rest acc Hf.
    destruct IH as (c & t' & -> & Hc & HV).
    repeat (rewrite <- app_assoc in * || cbn [app] in * ).
    rewrite app_length in Hf. cbn [List.length] in Hf. rewrite app_length in Hf.
    destruct f as [|f]; [lia|].
    rewrite (qd_arr_value f d _ acc c (t' ++ te ++ 93 :: rest)); [|rewrite q_skip_lblanks by assumption; apply q_skip_here; now apply vstart_blank|assumption].
    rewrite HV; [|apply after_num_te; [assumption|unfold number_byte, digit; lia]|rewrite app_length; lia].
    cbn [deepest fold_right]. fold (deepest l). rewrite leb_max.
    destruct (nesting j <=? d)%nat; [|reflexivity].
    cbn [rbind andb]. rewrite IHl by lia. cbn [map]. rewrite <- app_assoc. reflexivity.
  - (* end *)
    intros w Hw f d rest obj Ho Hf. destruct f as [|f]; [lia|]. rewrite qd_obj_S, q_skip_lblanks by assumption.
    rewrite (q_skip_here 125) by reflexivity. reflexivity.
  - (* comma *)
    intros w t l Hw Hl IH f d rest obj Ho Hf. repeat (rewrite <- app_assoc in * || cbn [app] in * ).
    rewrite app_length in Hf. cbn [List.length] in Hf.
    destruct f as [|f]; [lia|]. rewrite qd_obj_S, q_skip_lblanks by assumption.
    rewrite (q_skip_here 44) by reflexivity. cbn zeta.
    change (44 =? 125) with false. change (44 =? 44) with true. cbn iota. apply IH; [assumption|lia].
  - (* member *)
    intros w1 tk k w2 w3 t j tm l Hw1 Hk Hw2 Hw3 Hj IH Han Hl IHl f d rest obj Ho Hf.
    destruct IH as (c & t' & -> & Hc & HV).
    repeat (rewrite <- app_assoc in * || cbn [app] in * ).
    destruct (member_panic f d w1 tk k w2 w3 c (t' ++ tm ++ 125 :: rest) obj Ho Hw1 Hk Hw2 Hw3 Hc Hf) as (f' & Hf' & ->).
    rewrite HV; [|apply after_num_te; [assumption|unfold number_byte, digit; lia]|assumption].
    cbn [deepest_m fold_right snd]. fold (deepest_m l). rewrite leb_max.
    destruct (nesting j <=? d)%nat; [|reflexivity]. cbn [rbind andb].
    destruct (oput_set E obj k (to_V E j) Ho) as [-> Ho']. cbn [rbind].
    rewrite IHl; [reflexivity|assumption|lens].
Qed.

Lemma qd_unmarshal_lax d b j : lax_doc b j ->
  qd_unmarshal d b = if (nesting j <=? d)%nat then Ok (to_V E j) else Panic.
Proof.
  intros (w1 & t & w2 & -> & Hw1 & Hj & Hw2).
  destruct (proj1 nested_complete t j Hj) as (c & t' & -> & Hc & HV).
  unfold qd_unmarshal. cbn [app]. rewrite q_skip_lblanks by assumption.
  rewrite q_skip_here by now apply vstart_blank.
  assert (Ha : after_num j w2).
  { destruct j; try exact I. destruct Hw2 as [|x w2 Hx]; [exact I|]. cbn. unfold is_lblank, is_ws, number_byte, digit in *. lia. }
  rewrite HV; [|assumption|lens].
  destruct (nesting j <=? d)%nat; [|reflexivity]. cbn [rbind].
  rewrite <- (app_nil_r w2), q_skip_lblanks by assumption. reflexivity.
Qed.
End PureD.

(** *** Unmarshal *)

Lemma unmarshal_d_q E d b : b <> [] ->
  unmarshal_d E d b = match qd_unmarshal E d b with
                      | Ok v => Ok (v, None) | Err e => Ok (VNotExist, Some e) | Panic => Panic | Fuel => Fuel end.
Proof.
  intros Hb. unfold unmarshal_d. pose proof (run_d_spec E d b) as R. destruct b as [|c b]; [congruence|].
  destruct (qd_unmarshal E d (c :: b)); [destruct R as (s' & ->)|destruct R as (s' & ->)|rewrite R|rewrite R]; reflexivity.
Qed.
Lemma unmarshal_q E b : b <> [] ->
  unmarshal E b = match q_unmarshal E b with
                      | Ok v => Ok (v, None) | Err e => Ok (VNotExist, Some e) | Panic => Panic | Fuel => Fuel end.
Proof.
  intros Hb. unfold unmarshal. pose proof (run_unmarshal_spec E b) as R. destruct b as [|c b]; [congruence|].
  destruct (q_unmarshal E (c :: b)); [destruct R as (s' & -> & _)|destruct R as (s' & -> & _)| |]; try reflexivity; contradiction.
Qed.

Theorem overflow_exactly : forall (E : Env) (n : nat) (b : bytes), Forall is_byte b ->
  (unmarshal_d E n b = Panic <-> doc_opens b (S n)).
Proof.
  intros E n b Hb. destruct b as [|c b].
  { cbn. split; [discriminate|]. intros H. exfalso. inversion H as [w r m Hw Hv E0]. apply app_eq_nil in E0 as (_ & ->). inversion Hv. }
  rewrite unmarshal_d_q by discriminate. rewrite <- (qd_unmarshal_panic E) by assumption.
  destruct (qd_unmarshal E n (c :: b)); split; intros H; try discriminate H; reflexivity.
Qed.

Theorem enough_same : forall (E : Env) (n : nat) (b : bytes),
  unmarshal_d E n b <> Panic -> unmarshal_d E n b = unmarshal E b.
Proof.
  intros E n b H. destruct b as [|c b]; [reflexivity|].
  rewrite unmarshal_d_q in * by discriminate. rewrite unmarshal_q by discriminate.
  destruct (qd_unmarshal_or E n (c :: b)) as [->|Q]; [reflexivity|]. now rewrite Q in H.
Qed.

Theorem document_depth : forall (E : Env) (n : nat) (b : bytes) (j : jv),
  lax_doc b j -> (unmarshal_d E n b = Panic <-> (n < nesting j)%nat).
Proof.
  intros E n b j H.
  assert (Hne : b <> []).
  { destruct H as (w1 & t & w2 & -> & _ & Hj & _). destruct (proj1 (lax_complete E) t j Hj) as (c & t' & -> & _).
    destruct w1; discriminate. }
  rewrite unmarshal_d_q by assumption. rewrite (qd_unmarshal_lax E n b j H).
  destruct (Nat.leb_spec (nesting j) n); split; intros X; try discriminate X; try reflexivity; lia.
Qed.

Lemma brackets_app a b : brackets (a ++ b) = (brackets a + brackets b)%nat.
Proof. unfold brackets. now rewrite filter_app, app_length. Qed.
Lemma brackets_cons c b : (brackets b <= brackets (c :: b))%nat.
Proof. unfold brackets. cbn [filter]. destruct (_ || _); cbn [List.length]; lia. Qed.

Lemma opens_brackets :
  (forall r n, val_opens r n -> (n <= brackets r)%nat) /\ (
  (forall r n, arr_opens r n -> (n <= brackets r)%nat) /\ (forall r n, obj_opens r n -> (n <= brackets r)%nat)).
Proof.
  apply opens_mutind; intros; try lia; repeat (rewrite brackets_app || match goal with |- context [brackets (?c :: ?x)] =>
    lazymatch c with 91 => change (brackets (c :: x)) with (S (brackets x)) | 123 => change (brackets (c :: x)) with (S (brackets x))
      | 44 => change (brackets (c :: x)) with (brackets x) | 34 => change (brackets (c :: x)) with (brackets x)
      | 58 => change (brackets (c :: x)) with (brackets x) end end); try lia.
Qed.

Lemma brackets_length b : (brackets b <= List.length b)%nat.
Proof. unfold brackets. induction b as [|c b IH]; [cbn; lia|]. cbn [filter List.length]. destruct (_ || _); cbn [List.length]; lia. Qed.

Theorem brackets_enough : forall (E : Env) (n : nat) (b : bytes), Forall is_byte b ->
  (brackets b <= n)%nat -> unmarshal_d E n b = unmarshal E b.
Proof.
  intros E n b Hb Hn. apply enough_same. intros H. apply overflow_exactly in H; [|assumption].
  inversion H as [w r m Hw Hv]; subst. apply (proj1 opens_brackets) in Hv. rewrite brackets_app in Hn. lia.
Qed.

(** The texts that need all of it. *)
Lemma opens_repeat n : arr_opens (repeat 91 n) n.
Proof. induction n as [|n IH]; [constructor|]. cbn [repeat]. apply (AO_value []); [constructor|]. now constructor. Qed.

Theorem half_document : forall (E : Env) (n : nat), unmarshal_d E n (repeat 91 (S n)) = Panic.
Proof.
  intros E n. apply overflow_exactly.
  - apply Forall_forall. intros x Hx. apply repeat_spec in Hx. subst x. unfold is_byte. lia.
  - cbn [repeat]. apply (DO []); [constructor|]. constructor. apply opens_repeat.
Qed.

Fixpoint nest (n : nat) : jv := match n with O => JArr [] | S n => JArr [nest n] end.
Lemma nest_text n : jval (repeat 91 (S n) ++ repeat 93 (S n)) (nest n).
Proof.
  induction n as [|n IH]; [apply (JT_arr0 []); constructor|].
  replace (repeat 91 (S (S n)) ++ repeat 93 (S (S n))) with (91 :: (repeat 91 (S n) ++ repeat 93 (S n)) ++ [93]).
  - cbn [nest]. constructor. rewrite <- (app_nil_r (repeat 91 (S n) ++ repeat 93 (S n))).
    apply (JE_one [] _ []); [constructor|assumption|constructor].
  - change (repeat 91 (S (S n))) with (91 :: repeat 91 (S n)). cbn [app]. f_equal. rewrite <- app_assoc. f_equal.
    symmetry. apply (repeat_cons (S n)).
Qed.
Lemma nest_lax n : lval (repeat 91 (S n) ++ repeat 93 (S n)) (nest n).
Proof.
  induction n as [|n IH]; [apply (LV_arr [] []); apply (LE_end []); constructor|].
  replace (repeat 91 (S (S n)) ++ repeat 93 (S (S n))) with (91 :: (repeat 91 (S n) ++ repeat 93 (S n)) ++ [93]).
  - cbn [nest]. constructor. rewrite <- (app_nil_r (repeat 91 (S n) ++ repeat 93 (S n))).
    apply (LE_cons [] _ _ []); [constructor|assumption|destruct n; exact I|constructor; constructor].
  - change (repeat 91 (S (S n))) with (91 :: repeat 91 (S n)). cbn [app]. f_equal. rewrite <- app_assoc. f_equal.
    symmetry. apply (repeat_cons (S n)).
Qed.
Lemma nest_nesting n : nesting (nest n) = S n.
Proof. induction n as [|n IH]; [reflexivity|]. cbn [nest nesting fold_right]. rewrite IH. lia. Qed.

(** No amount of stack is enough for all documents, not even of RFC 8259. *)
Theorem some_stack_refuted : forall (E : Env) (n : nat), exists b j,
  json_doc b j /\ List.length b = (2 * S n)%nat /\ (exists v, unmarshal E b = Ok (v, None)) /\ unmarshal_d E n b = Panic.
Proof.
  intros E n. exists (repeat 91 (S n) ++ repeat 93 (S n)), (nest n).
  assert (HD : json_doc (repeat 91 (S n) ++ repeat 93 (S n)) (nest n)).
  { exists [], (repeat 91 (S n) ++ repeat 93 (S n)), []. rewrite app_nil_r. repeat split; try constructor. apply nest_text. }
  split; [assumption|]. split; [rewrite app_length, !repeat_length; lia|].
  assert (HL : lax_doc (repeat 91 (S n) ++ repeat 93 (S n)) (nest n)).
  { exists [], (repeat 91 (S n) ++ repeat 93 (S n)), []. rewrite app_nil_r. repeat split; try constructor. apply nest_lax. }
  split.
  - exists (to_V E (nest n)). rewrite unmarshal_q by (cbn; discriminate). now rewrite (q_unmarshal_lax E _ _ HL).
  - apply (document_depth E n _ _ HL). rewrite nest_nesting. lia.
Qed.

(** What follows does not matter. *)
Lemma opens_empty n : (arr_opens [] n -> n = 0%nat) /\ (obj_opens [] n -> n = 0%nat).
Proof.
  destruct opens_brackets as (_ & A & O). split; intros H; [apply A in H|apply O in H]; cbn in H; lia.
Qed.
Lemma after_num_longer j r x : r <> [] -> after_num j r -> after_num j (r ++ x).
Proof. destruct r as [|c r]; [congruence|]. intros _. destruct j; auto. Qed.

Lemma opens_longer x :
  (forall r n, val_opens r n -> val_opens (r ++ x) n) /\ (
  (forall r n, arr_opens r n -> arr_opens (r ++ x) n) /\ (forall r n, obj_opens r n -> obj_opens (r ++ x) n)).
Proof.
  apply opens_mutind.
  - intros r n _ IH. cbn [app]. now constructor.
  - intros r n _ IH. cbn [app]. now constructor.
  - constructor.
  - intros w r n Hw _ IH. rewrite <- app_assoc. now constructor.
  - intros w r n Hw _ IH. rewrite <- app_assoc. cbn [app]. now constructor.
  - intros w t j r n Hw Hl Ha Hr IH. rewrite <- !app_assoc. destruct n as [|n]; [constructor|].
    eapply AO_later; try eassumption. apply after_num_longer; [|assumption].
    intros ->. apply (proj1 (opens_empty _)) in Hr. discriminate.
  - constructor.
  - intros w1 tk k w2 w3 r n Hw1 Hk Hw2 Hw3 _ IH. repeat (rewrite <- app_assoc || cbn [app]). eapply OO_value; eassumption.
  - intros w r n Hw _ IH. rewrite <- app_assoc. cbn [app]. now constructor.
  - intros w1 tk k w2 w3 t j r n Hw1 Hk Hw2 Hw3 Hl Ha Hr IH. destruct n as [|n]; [constructor|].
    repeat (rewrite <- app_assoc || cbn [app]).
    eapply OO_later; try eassumption. apply after_num_longer; [|assumption].
    intros ->. apply (proj2 (opens_empty _)) in Hr. discriminate.
Qed.

Theorem overflow_stays : forall (E : Env) (n : nat) (b x : bytes), Forall is_byte b -> Forall is_byte x ->
  unmarshal_d E n b = Panic -> unmarshal_d E n (b ++ x) = Panic.
Proof.
  intros E n b x Hb Hx H. apply overflow_exactly in H; [|assumption].
  apply overflow_exactly; [apply Forall_app; split; assumption|].
  inversion H as [w r m Hw Hv]; subst. rewrite <- app_assoc. constructor; [assumption|]. now apply (proj1 (opens_longer x)).
Qed.
