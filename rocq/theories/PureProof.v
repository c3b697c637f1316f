(** The in-place parser computes what the copying parser of Pure.v computes. *)
From Verif Require Import Base Float64 Value Scan Unmarshal Pure ListLemmas.

Lemma ok3 {A} (b b' : A) (i i' j j' : nat) :
  b = b' -> i = i' -> j = j' -> Ok (b, i, j) = Ok (b', i', j').
Proof. intros -> -> ->. reflexivity. Qed.

(** ** Strings *)

Lemma assign_rune_spec A X R r :
  (List.length (q_rune r) <= List.length X)%nat ->
  assign_rune (A ++ X ++ R) (List.length A) r =
  Ok (A ++ q_rune r ++ skipn (List.length (q_rune r)) X ++ R, List.length (q_rune r)).
Proof.
  unfold assign_rune, q_rune.
  destruct (r <=? 127) eqn:E1; [|destruct (r <=? 2047) eqn:E2; [|destruct (r <=? 65535) eqn:E3]];
    cbn [List.length]; intros H.
  - destruct X as [|x0 X]; cbn [List.length] in H; [lia|].
    cbn [app skipn]. rewrite bset_here. reflexivity.
  - destruct X as [|x0 [|x1 X]]; cbn [List.length] in H; try lia.
    cbn [app skipn].
    replace (A ++ x0 :: x1 :: X ++ R) with ((A ++ [x0]) ++ x1 :: X ++ R) by (rewrite <- app_assoc; reflexivity).
    rewrite bset_at by (rewrite app_length; simpl; lia). cbn [rbind].
    rewrite <- app_assoc. cbn [app]. rewrite bset_here. reflexivity.
  - destruct X as [|x0 [|x1 [|x2 X]]]; cbn [List.length] in H; try lia.
    cbn [app skipn].
    replace (A ++ x0 :: x1 :: x2 :: X ++ R) with ((A ++ [x0; x1]) ++ x2 :: X ++ R) by (rewrite <- app_assoc; reflexivity).
    rewrite bset_at by (rewrite app_length; simpl; lia). cbn [rbind].
    rewrite <- app_assoc. cbn [app].
    match goal with |- context [A ++ x0 :: x1 :: ?T] =>
      replace (A ++ x0 :: x1 :: T) with ((A ++ [x0]) ++ x1 :: T) by (rewrite <- app_assoc; reflexivity) end.
    rewrite bset_at by (rewrite app_length; simpl; lia). cbn [rbind].
    rewrite <- app_assoc. cbn [app]. rewrite bset_here. reflexivity.
  - destruct X as [|x0 [|x1 [|x2 [|x3 X]]]]; cbn [List.length] in H; try lia.
    cbn [app skipn].
    replace (A ++ x0 :: x1 :: x2 :: x3 :: X ++ R) with ((A ++ [x0; x1; x2]) ++ x3 :: X ++ R) by (rewrite <- app_assoc; reflexivity).
    rewrite bset_at by (rewrite app_length; simpl; lia). cbn [rbind].
    rewrite <- app_assoc. cbn [app].
    match goal with |- context [A ++ x0 :: x1 :: x2 :: ?T] =>
      replace (A ++ x0 :: x1 :: x2 :: T) with ((A ++ [x0; x1]) ++ x2 :: T) by (rewrite <- app_assoc; reflexivity) end.
    rewrite bset_at by (rewrite app_length; simpl; lia). cbn [rbind].
    rewrite <- app_assoc. cbn [app].
    match goal with |- context [A ++ x0 :: x1 :: ?T] =>
      replace (A ++ x0 :: x1 :: T) with ((A ++ [x0]) ++ x1 :: T) by (rewrite <- app_assoc; reflexivity) end.
    rewrite bset_at by (rewrite app_length; simpl; lia). cbn [rbind].
    rewrite <- app_assoc. cbn [app]. rewrite bset_here. reflexivity.
Qed.

Lemma q_rune_length r : (1 <= List.length (q_rune r) <= 4)%nat.
Proof.
  unfold q_rune.
  destruct (r <=? 127); [|destruct (r <=? 2047); [|destruct (r <=? 65535)]]; simpl; lia.
Qed.

Lemma bwrite_spec A X R w :
  (List.length w <= List.length X)%nat ->
  bwrite (A ++ X ++ R) (List.length A) w = A ++ w ++ skipn (List.length w) X ++ R.
Proof.
  revert A X. induction w as [|a w IH]; intros A X H; [reflexivity|].
  destruct X as [|x X]; simpl in H; [lia|].
  cbn [bwrite List.length skipn app]. rewrite upd_app.
  replace (A ++ a :: X ++ R) with ((A ++ [a]) ++ X ++ R) by (rewrite <- app_assoc; reflexivity).
  replace (S (List.length A)) with (List.length (A ++ [a])) by (rewrite app_length; simpl; lia).
  rewrite IH by lia. rewrite <- app_assoc. reflexivity.
Qed.

Lemma chr_to_hex_cases c :
  (exists h, chr_to_hex c = Ok h /\ 0 <= h <= 15) \/ (exists e, chr_to_hex c = Err e).
Proof.
  unfold chr_to_hex.
  destruct ((48 <=? c) && (c <=? 57)) eqn:E1; [left; eexists; split; [reflexivity|lia]|].
  destruct ((65 <=? c) && (c <=? 70)) eqn:E2; [left; eexists; split; [reflexivity|lia]|].
  destruct ((97 <=? c) && (c <=? 102)) eqn:E3; [left; eexists; split; [reflexivity|lia]|].
  right; eexists; reflexivity.
Qed.

Lemma q_hex4_cases a b c d :
  (exists u, q_hex4 a b c d = Ok u /\ 0 <= u <= 65535) \/ (exists e, q_hex4 a b c d = Err e).
Proof.
  unfold q_hex4.
  destruct (chr_to_hex_cases a) as [(h3 & -> & ?)|(e & ->)]; [|right; simpl; eauto].
  destruct (chr_to_hex_cases b) as [(h2 & -> & ?)|(e & ->)]; [|right; simpl; eauto].
  destruct (chr_to_hex_cases c) as [(h1 & -> & ?)|(e & ->)]; [|right; simpl; eauto].
  destruct (chr_to_hex_cases d) as [(h0 & -> & ?)|(e & ->)]; [|right; simpl; eauto].
  left. cbn [rbind]. eexists; split; [reflexivity|lia].
Qed.

Lemma hex4_spec A a b c d R i :
  i = List.length A -> hex4 (A ++ a :: b :: c :: d :: R) i = q_hex4 a b c d.
Proof.
  intros ->. unfold hex4, q_hex4.
  rewrite bget_here. cbn [rbind].
  replace (A ++ a :: b :: c :: d :: R) with ((A ++ [a]) ++ b :: c :: d :: R) by (rewrite <- app_assoc; reflexivity).
  rewrite bget_at by (rewrite app_length; simpl; lia). cbn [rbind].
  replace ((A ++ [a]) ++ b :: c :: d :: R) with ((A ++ [a; b]) ++ c :: d :: R) by (rewrite <- !app_assoc; reflexivity).
  rewrite bget_at by (rewrite app_length; simpl; lia). cbn [rbind].
  replace ((A ++ [a; b]) ++ c :: d :: R) with ((A ++ [a; b; c]) ++ d :: R) by (rewrite <- !app_assoc; reflexivity).
  rewrite bget_at by (rewrite app_length; simpl; lia). cbn [rbind].
  reflexivity.
Qed.

(** Outcome of consuming one character: the decoded bytes [w] were appended to
    the decoded part, the unread part is [r1]. *)
Definition step_ok (A G : bytes) (out : res (bytes * nat * nat)) (w r1 : bytes) (consumed : nat) : Prop :=
  exists G', out = Ok ((A ++ w) ++ G' ++ r1, (List.length (A ++ w) + List.length G')%nat, List.length (A ++ w))
             /\ (List.length w + List.length G' = List.length G + consumed)%nat.

Lemma put_spec A G u R x k :
  (List.length u = S k) ->
  exists G',
    bset (A ++ G ++ u ++ R) (List.length A) x = Ok ((A ++ [x]) ++ G' ++ R)
    /\ (S (List.length G') = List.length G + List.length u)%nat.
Proof.
  intros Hu. rewrite (app_assoc G u R).
  assert (HL : (List.length (G ++ u) = List.length G + S k)%nat) by (rewrite app_length; lia).
  remember (G ++ u) as Y eqn:EY. destruct Y as [|y Y]; simpl in HL; [lia|].
  exists Y. rewrite <- app_assoc. cbn [app]. rewrite bset_here. split; [reflexivity|].
  simpl. lia.
Qed.

Lemma handle_escape_unicode_spec A G t :
  let b := A ++ G ++ 92 :: 117 :: t in
  match q_unicode t with
  | Ok (w, r1) =>
      exists G',
        handle_escape_unicode b (List.length A + List.length G) (List.length A)
        = Ok ((A ++ w) ++ G' ++ r1, (List.length (A ++ w) + List.length G')%nat, List.length (A ++ w))
        /\ (List.length w + List.length G' + List.length r1 = List.length G + 2 + List.length t)%nat
        /\ (exists u, t = u ++ r1)
  | Err e => handle_escape_unicode b (List.length A + List.length G) (List.length A) = Err e
  | _ => False
  end.
Proof.
  cbn zeta. unfold handle_escape_unicode, q_unicode.
  assert (HL : forall t : bytes, (List.length (A ++ G ++ 92%Z :: 117%Z :: t) - (List.length A + List.length G))%nat
               = (2 + List.length t)%nat).
  { intros t'. rewrite !app_length. simpl. lia. }
  rewrite HL.
  destruct t as [|a [|b [|c [|d [|x t]]]]]; try reflexivity.
  destruct (Nat.leb_spec (2 + List.length (a :: b :: c :: d :: x :: t)) 6) as [Hle|_];
    [cbn [List.length] in Hle; lia|].
  assert (Hh : hex4 (A ++ G ++ 92 :: 117 :: a :: b :: c :: d :: x :: t)
                 (List.length A + List.length G + 2) = q_hex4 a b c d).
  { replace (A ++ G ++ 92 :: 117 :: a :: b :: c :: d :: x :: t)
      with ((A ++ G ++ [92; 117]) ++ a :: b :: c :: d :: x :: t)
      by (rewrite <- !app_assoc; reflexivity).
    apply hex4_spec. rewrite !app_length. simpl. lia. }
  rewrite Hh. clear Hh.
  destruct (q_hex4_cases a b c d) as [(u & -> & Hu)|(e & ->)]; [|reflexivity].
  cbn [rbind].
  destruct ((u <=? 55295) || (57344 <=? u)) eqn:Eu.
  - pose proof (q_rune_length u) as Hq.
    replace (A ++ G ++ 92 :: 117 :: a :: b :: c :: d :: x :: t)
      with (A ++ (G ++ [92; 117; a; b; c; d]) ++ x :: t)
      by (rewrite <- !app_assoc; reflexivity).
    rewrite assign_rune_spec by (rewrite app_length; simpl; lia).
    cbn [rbind].
    exists (skipn (List.length (q_rune u)) (G ++ [92; 117; a; b; c; d])). split.
    + rewrite skipn_length, !app_length. cbn [List.length].
      rewrite <- app_assoc. apply ok3; [reflexivity|lia|lia].
    + split; [rewrite skipn_length, !app_length; cbn [List.length]; lia|].
      exists [a; b; c; d]. reflexivity.
  - destruct t as [|c7 [|e [|f [|g [|h [|y t2]]]]]];
      try (rewrite (proj2 (Nat.leb_le _ 12)) by (simpl; lia); reflexivity).
    destruct (Nat.leb_spec (2 + List.length (a :: b :: c :: d :: x :: c7 :: e :: f :: g :: h :: y :: t2)) 12) as [Hle|_];
      [cbn [List.length] in Hle; lia|].
    assert (H6 : bget (A ++ G ++ 92 :: 117 :: a :: b :: c :: d :: x :: c7 :: e :: f :: g :: h :: y :: t2)
                   (List.length A + List.length G + 6) = Ok x).
    { replace (A ++ G ++ 92 :: 117 :: a :: b :: c :: d :: x :: c7 :: e :: f :: g :: h :: y :: t2)
        with ((A ++ G ++ [92; 117; a; b; c; d]) ++ x :: c7 :: e :: f :: g :: h :: y :: t2)
        by (rewrite <- !app_assoc; reflexivity).
      apply bget_at. rewrite !app_length. simpl. lia. }
    assert (H7 : bget (A ++ G ++ 92 :: 117 :: a :: b :: c :: d :: x :: c7 :: e :: f :: g :: h :: y :: t2)
                   (List.length A + List.length G + 7) = Ok c7).
    { replace (A ++ G ++ 92 :: 117 :: a :: b :: c :: d :: x :: c7 :: e :: f :: g :: h :: y :: t2)
        with ((A ++ G ++ [92; 117; a; b; c; d; x]) ++ c7 :: e :: f :: g :: h :: y :: t2)
        by (rewrite <- !app_assoc; reflexivity).
      apply bget_at. rewrite !app_length. simpl. lia. }
    assert (H8 : hex4 (A ++ G ++ 92 :: 117 :: a :: b :: c :: d :: x :: c7 :: e :: f :: g :: h :: y :: t2)
                   (List.length A + List.length G + 8) = q_hex4 e f g h).
    { replace (A ++ G ++ 92 :: 117 :: a :: b :: c :: d :: x :: c7 :: e :: f :: g :: h :: y :: t2)
        with ((A ++ G ++ [92; 117; a; b; c; d; x; c7]) ++ e :: f :: g :: h :: y :: t2)
        by (rewrite <- !app_assoc; reflexivity).
      apply hex4_spec. rewrite !app_length. simpl. lia. }
    rewrite H6, H7, H8. cbn [rbind]. clear H6 H7 H8.
    destruct (negb ((x =? 92) && (c7 =? 117))); [reflexivity|].
    destruct (q_hex4_cases e f g h) as [(ex & -> & Hex)|(e' & ->)]; [|reflexivity].
    cbn [rbind].
    destruct (ex <? 56320); [reflexivity|].
    destruct (1023 <? ex - 56320); [reflexivity|].
    set (r' := Z.shiftl (u - 55296) 10 + (ex - 56320) + 65536).
    pose proof (q_rune_length r') as Hq.
    replace (A ++ G ++ 92 :: 117 :: a :: b :: c :: d :: x :: c7 :: e :: f :: g :: h :: y :: t2)
      with (A ++ (G ++ [92; 117; a; b; c; d; x; c7; e; f; g; h]) ++ y :: t2)
      by (rewrite <- !app_assoc; reflexivity).
    rewrite assign_rune_spec by (rewrite app_length; simpl; lia).
    cbn [rbind].
    exists (skipn (List.length (q_rune r')) (G ++ [92; 117; a; b; c; d; x; c7; e; f; g; h])). split.
    + rewrite skipn_length, !app_length. cbn [List.length].
      rewrite <- app_assoc. apply ok3; [reflexivity|lia|lia].
    + split; [rewrite skipn_length, !app_length; cbn [List.length]; lia|].
      exists [a; b; c; d; x; c7; e; f; g; h]. reflexivity.
Qed.

Lemma handle_escape_spec A G t :
  let b := A ++ G ++ 92 :: t in
  match q_escape t with
  | Ok (w, r1) =>
      exists G',
        handle_escape b (List.length A + List.length G) (List.length A)
        = Ok ((A ++ w) ++ G' ++ r1, (List.length (A ++ w) + List.length G')%nat, List.length (A ++ w))
        /\ (List.length w + List.length G' + List.length r1 = List.length G + 1 + List.length t)%nat
        /\ (exists u, t = u ++ r1)
  | Err e => handle_escape b (List.length A + List.length G) (List.length A) = Err e
  | _ => False
  end.
Proof.
  cbn zeta. unfold handle_escape, q_escape.
  assert (HL : (List.length (A ++ G ++ 92%Z :: t) - (List.length A + List.length G))%nat
               = (1 + List.length t)%nat).
  { rewrite !app_length. simpl. lia. }
  rewrite HL.
  destruct t as [|c t]; [reflexivity|].
  destruct (Nat.ltb_spec (1 + List.length (c :: t)) 2) as [Hlt|_]; [cbn [List.length] in Hlt; lia|].
  assert (Hc : bget (A ++ G ++ 92 :: c :: t) (List.length A + List.length G + 1) = Ok c).
  { replace (A ++ G ++ 92 :: c :: t) with ((A ++ G ++ [92]) ++ c :: t) by (rewrite <- !app_assoc; reflexivity).
    apply bget_at. rewrite !app_length. simpl. lia. }
  rewrite Hc. cbn [rbind]. clear Hc.
  assert (Hput : forall x, exists G',
     (let* b' := bset (A ++ G ++ 92 :: c :: t) (List.length A) x in
      Ok (b', (List.length A + List.length G + 2)%nat, S (List.length A)))
     = Ok ((A ++ [x]) ++ G' ++ t, (List.length (A ++ [x]) + List.length G')%nat, List.length (A ++ [x]))
     /\ (List.length [x] + List.length G' + List.length t = List.length G + 1 + List.length (c :: t))%nat
     /\ (exists u, c :: t = u ++ t)).
  { intros x. destruct (put_spec A G [92; c] t x 1 eq_refl) as (G' & HG & HL').
    cbn [app] in HG. rewrite HG. cbn [rbind]. exists G'. split.
    - rewrite app_length. cbn [List.length] in *. apply ok3; [reflexivity|lia|lia].
    - split; [simpl in *; lia|]. exists [c]. reflexivity. }
  destruct ((c =? 34) || (c =? 39) || (c =? 47) || (c =? 92)); [apply Hput|].
  destruct (c =? 98); [apply Hput|].
  destruct (c =? 102); [apply Hput|].
  destruct (c =? 114); [apply Hput|].
  destruct (c =? 110); [apply Hput|].
  destruct (c =? 116); [apply Hput|].
  destruct (Z.eqb_spec c 117) as [->|Hc]; [|reflexivity].
  pose proof (handle_escape_unicode_spec A G t) as H. cbn zeta in H.
  destruct (q_unicode t) as [[w r1]|e| |]; try contradiction; [|exact H].
  destruct H as (G' & H1 & HL' & u & H2). exists G'. split; [exact H1|].
  split; [cbn [List.length]; lia|].
  exists (117 :: u). simpl. now rewrite H2.
Qed.

Lemma shift_spec A G R k :
  let b := A ++ G ++ R in
  match q_take k R with
  | Ok (w, r1) =>
      exists G',
        shift b (List.length A + List.length G) (List.length A) k
        = Ok ((A ++ w) ++ G' ++ r1, (List.length (A ++ w) + List.length G')%nat, List.length (A ++ w))
        /\ (List.length w + List.length G' + List.length r1 = List.length G + List.length R)%nat
        /\ R = w ++ r1
  | Err e => shift b (List.length A + List.length G) (List.length A) k = Err e
  | _ => False
  end.
Proof.
  cbn zeta. unfold shift, q_take.
  replace (List.length (A ++ G ++ R) - (List.length A + List.length G))%nat with (List.length R)
    by (rewrite !app_length; lia).
  destruct (Nat.ltb_spec (List.length R) k) as [Hlt|Hge]; [reflexivity|].
  destruct (split_at R k Hge) as (w & r1 & -> & Hw & Hs).
  rewrite Hs. rewrite firstn_app_at by lia. rewrite app_length in Hge.
  unfold memcpy.
  destruct (Nat.eqb_spec (List.length A) (List.length A + List.length G)) as [He|Hne].
  - assert (G = []) as -> by (destruct G; [reflexivity|simpl in He; lia]).
    cbn [rbind app List.length]. exists []. split; [|split; [rewrite app_length; simpl; lia|reflexivity]].
    rewrite app_length. cbn [List.length app]. rewrite <- app_assoc.
    apply ok3; [reflexivity|lia|lia].
  - unfold bslice at 1. rewrite !app_length.
    destruct (Nat.leb_spec (List.length A) (List.length A + k)); [|lia].
    destruct (Nat.leb_spec (List.length A + k)
                (List.length A + (List.length G + (List.length w + List.length r1)))); [|lia].
    cbn [andb rbind].
    replace (A ++ G ++ w ++ r1) with ((A ++ G) ++ w ++ r1) by (rewrite <- app_assoc; reflexivity).
    rewrite bslice_app by (rewrite ?app_length; lia).
    cbn [rbind].
    replace ((A ++ G) ++ w ++ r1) with (A ++ (G ++ w) ++ r1) by (rewrite <- !app_assoc; reflexivity).
    rewrite bwrite_spec by (rewrite app_length; lia).
    exists (skipn (List.length w) (G ++ w)).
    split; [|split; [rewrite skipn_length, !app_length; lia|reflexivity]].
    rewrite skipn_length, !app_length.
    rewrite <- app_assoc. apply ok3; [reflexivity|lia|lia].
Qed.

(** The string loop against [q_str], with the same fuel. *)
Lemma parse_str_loop_spec f : forall A G R off,
  (off <= List.length A)%nat ->
  match q_str f R with
  | Ok (s, rest) =>
      exists G',
        parse_str_loop f (A ++ G ++ R) off (List.length A + List.length G) (List.length A)
        = Ok (A ++ s ++ G' ++ rest, (List.length A + List.length s - off)%nat,
              (List.length A + List.length s + List.length G')%nat)
        /\ (List.length (A ++ s ++ G' ++ rest) = List.length (A ++ G ++ R))
        /\ (1 <= List.length G')%nat
        /\ (exists u, R = u ++ rest)
  | Err e => parse_str_loop f (A ++ G ++ R) off (List.length A + List.length G) (List.length A) = Err e
  | Fuel => parse_str_loop f (A ++ G ++ R) off (List.length A + List.length G) (List.length A) = Fuel
  | Panic => False
  end.
Proof.
  induction f as [|f IH]; intros A G R off Hoff; [reflexivity|].
  cbn [q_str parse_str_loop].
  destruct R as [|c t].
  - rewrite app_nil_r, app_length.
    destruct (Nat.ltb_spec (List.length A + List.length G) (List.length A + List.length G)); [lia|reflexivity].
  - destruct (Nat.ltb_spec (List.length A + List.length G) (List.length (A ++ G ++ c :: t))) as [_|Hge];
      [|rewrite !app_length in Hge; simpl in Hge; lia].
    assert (Hc : bget (A ++ G ++ c :: t) (List.length A + List.length G) = Ok c).
    { rewrite app_assoc. apply bget_at. now rewrite app_length. }
    rewrite Hc. cbn [rbind]. clear Hc.
    destruct (Z.eqb_spec c 34) as [->|Hc34].
    + exists (G ++ [34]). cbn [app List.length].
      replace (A ++ (G ++ [34]) ++ t) with (A ++ G ++ 34 :: t) by (rewrite <- !app_assoc; reflexivity).
      rewrite app_length. cbn [List.length].
      split; [|split; [|split]].
      * apply ok3; [reflexivity|lia|lia].
      * reflexivity.
      * lia.
      * exists [34]. reflexivity.
    + assert (Hstep :
        match q_char c t with
        | Ok (w, r1) =>
            exists G',
              (if c =? 92 then handle_escape (A ++ G ++ c :: t) (List.length A + List.length G) (List.length A)
               else if c <=? 127 then
                 let* b1 := bset (A ++ G ++ c :: t) (List.length A) c in
                 Ok (b1, S (List.length A + List.length G), S (List.length A))
               else if rune_bytes2 c then shift (A ++ G ++ c :: t) (List.length A + List.length G) (List.length A) 2
               else if rune_bytes3 c then shift (A ++ G ++ c :: t) (List.length A + List.length G) (List.length A) 3
               else if rune_bytes4 c then shift (A ++ G ++ c :: t) (List.length A + List.length G) (List.length A) 4
               else Err ErrIllegalString)
              = Ok ((A ++ w) ++ G' ++ r1, (List.length (A ++ w) + List.length G')%nat, List.length (A ++ w))
              /\ (List.length w + List.length G' + List.length r1 = List.length G + List.length (c :: t))%nat
              /\ (exists u, c :: t = u ++ r1)
        | Err e =>
              (if c =? 92 then handle_escape (A ++ G ++ c :: t) (List.length A + List.length G) (List.length A)
               else if c <=? 127 then
                 let* b1 := bset (A ++ G ++ c :: t) (List.length A) c in
                 Ok (b1, S (List.length A + List.length G), S (List.length A))
               else if rune_bytes2 c then shift (A ++ G ++ c :: t) (List.length A + List.length G) (List.length A) 2
               else if rune_bytes3 c then shift (A ++ G ++ c :: t) (List.length A + List.length G) (List.length A) 3
               else if rune_bytes4 c then shift (A ++ G ++ c :: t) (List.length A + List.length G) (List.length A) 4
               else Err ErrIllegalString) = Err e
        | _ => False
        end).
      { unfold q_char.
        destruct (Z.eqb_spec c 92) as [->|Hc92].
        { pose proof (handle_escape_spec A G t) as H. cbn zeta in H.
          destruct (q_escape t) as [[w r1]|e| |]; try contradiction; [|exact H].
          destruct H as (G' & H1 & HL & u & H2). exists G'. split; [exact H1|].
          split; [cbn [List.length]; lia|].
          exists (92 :: u). simpl. now rewrite H2. }
        destruct (c <=? 127).
        { destruct (put_spec A G [c] t c 0 eq_refl) as (G' & HG & HL').
          cbn [app] in HG. rewrite HG. cbn [rbind]. exists G'. split.
          - rewrite app_length. cbn [List.length] in *. apply ok3; [reflexivity|lia|lia].
          - split; [simpl in *; lia|]. exists [c]. reflexivity. }
        destruct (rune_bytes2 c); [|destruct (rune_bytes3 c); [|destruct (rune_bytes4 c); [|reflexivity]]].
        - pose proof (shift_spec A G (c :: t) 2) as H. cbn zeta in H.
          destruct (q_take 2 (c :: t)) as [[w r1]|e| |]; try contradiction; [|exact H].
          destruct H as (G' & H1 & HL & H2). eauto 6.
        - pose proof (shift_spec A G (c :: t) 3) as H. cbn zeta in H.
          destruct (q_take 3 (c :: t)) as [[w r1]|e| |]; try contradiction; [|exact H].
          destruct H as (G' & H1 & HL & H2). eauto 6.
        - pose proof (shift_spec A G (c :: t) 4) as H. cbn zeta in H.
          destruct (q_take 4 (c :: t)) as [[w r1]|e| |]; try contradiction; [|exact H].
          destruct H as (G' & H1 & HL & H2). eauto 6. }
      destruct (q_char c t) as [[w r1]|e| |]; try contradiction.
      2:{ cbn [rbind]. rewrite Hstep. reflexivity. }
      destruct Hstep as (G' & HG' & HL & u & Hu). rewrite HG'. cbn [rbind].
      specialize (IH (A ++ w) G' r1 off). rewrite app_length in IH at 1.
      specialize (IH ltac:(lia)).
      destruct (q_str f r1) as [[s rest]|e| |]; cbn [rbind]; try exact IH.
      destruct IH as (G2 & H1 & H2 & H4 & u2 & H3).
      exists G2. rewrite H1. rewrite !app_length in *. split; [|split; [|split]].
      * rewrite <- !app_assoc. apply ok3; [reflexivity|lia|lia].
      * cbn [List.length] in *. lia.
      * exact H4.
      * exists (u ++ u2). now rewrite Hu, H3, app_assoc.
Qed.

(** Fuel above the remaining length does not change the result. *)
Lemma q_take_shorter k c t w r1 :
  (0 < k)%nat -> q_take k (c :: t) = Ok (w, r1) -> (List.length r1 <= List.length t)%nat.
Proof.
  unfold q_take. destruct (Nat.ltb_spec (List.length (c :: t)) k); [discriminate|].
  intros Hk E. inversion E; subst. rewrite skipn_length. cbn [List.length] in *. lia.
Qed.

Lemma q_char_shorter c t w r1 :
  q_char c t = Ok (w, r1) -> (List.length r1 <= List.length t)%nat.
Proof.
  unfold q_char.
  destruct (c =? 92).
  - unfold q_escape. destruct t as [|d t]; [discriminate|].
    repeat match goal with |- context [if ?x then Ok _ else _] =>
      destruct x; [intros E; inversion E; subst; simpl; lia|] end.
    destruct (d =? 117); [|discriminate].
    unfold q_unicode. destruct t as [|a0 [|b0 [|c0 [|d0 [|x0 t]]]]]; try discriminate.
    destruct (q_hex4_cases a0 b0 c0 d0) as [(u & -> & Hu)|(e & ->)]; [|discriminate].
    cbn [rbind].
    destruct ((u <=? 55295) || (57344 <=? u)); [intros E; inversion E; subst; simpl; lia|].
    destruct t as [|c7 [|e [|f [|g [|h [|y t2]]]]]]; try discriminate.
    destruct (negb _); [discriminate|].
    destruct (q_hex4_cases e f g h) as [(ex & -> & Hex)|(e' & ->)]; [|discriminate].
    cbn [rbind]. destruct (ex <? 56320); [discriminate|]. destruct (1023 <? ex - 56320); [discriminate|].
    intros E; inversion E; subst; simpl; lia.
  - destruct (c <=? 127); [intros E; inversion E; subst; simpl; lia|].
    destruct (rune_bytes2 c); [apply q_take_shorter; lia|].
    destruct (rune_bytes3 c); [apply q_take_shorter; lia|].
    destruct (rune_bytes4 c); [apply q_take_shorter; lia|discriminate].
Qed.

Lemma q_str_fuel f : forall f' r,
  (List.length r < f)%nat -> (List.length r < f')%nat -> q_str f r = q_str f' r.
Proof.
  induction f as [|f IH]; intros f' r H1 H2; [lia|].
  destruct f' as [|f']; [lia|].
  cbn [q_str]. destruct r as [|c t]; [reflexivity|].
  destruct (c =? 34); [reflexivity|].
  destruct (q_char c t) as [[w r1]|e| |] eqn:E; try reflexivity.
  cbn [rbind]. apply q_char_shorter in E. cbn [List.length] in *.
  rewrite (IH f') by lia. reflexivity.
Qed.

Lemma q_char_total c t :
  (exists w r1, q_char c t = Ok (w, r1)) \/ (exists e, q_char c t = Err e).
Proof.
  unfold q_char, q_take.
  destruct (c =? 92).
  - unfold q_escape. destruct t as [|d t]; [eauto|].
    repeat match goal with |- context [if ?x then Ok _ else _] => destruct x; [eauto|] end.
    destruct (d =? 117); [|eauto].
    unfold q_unicode. destruct t as [|a0 [|b0 [|c0 [|d0 [|x0 t]]]]]; eauto.
    destruct (q_hex4_cases a0 b0 c0 d0) as [(u & -> & Hu)|(e & ->)]; [|cbn [rbind]; eauto].
    cbn [rbind].
    destruct ((u <=? 55295) || (57344 <=? u)); [eauto|].
    destruct t as [|c7 [|e [|f [|g [|h [|y t2]]]]]]; eauto.
    destruct (negb _); [eauto|].
    destruct (q_hex4_cases e f g h) as [(ex & -> & Hex)|(e' & ->)]; [|cbn [rbind]; eauto].
    cbn [rbind]. destruct (ex <? 56320); [eauto|]. destruct (1023 <? ex - 56320); eauto.
  - destruct (c <=? 127); [eauto|].
    repeat match goal with |- context [if ?x then _ else _] => destruct x end; eauto.
Qed.

Lemma q_str_total f : forall r, (List.length r < f)%nat ->
  (exists s r1, q_str f r = Ok (s, r1)) \/ (exists e, q_str f r = Err e).
Proof.
  induction f as [|f IH]; intros r H1; [lia|].
  cbn [q_str]. destruct r as [|c t]; [eauto|].
  destruct (c =? 34); [eauto|].
  destruct (q_char_total c t) as [(w & r1 & E)|(e & E)]; rewrite E; cbn [rbind]; [|eauto].
  apply q_char_shorter in E. cbn [List.length] in *.
  destruct (IH r1 ltac:(lia)) as [(s & r2 & ->)|(e & ->)]; cbn [rbind]; eauto.
Qed.

(** Relation between the buffer before and after a step that started at
    [off] and ended at [e]: nothing outside [off, e) changed. *)
Definition frame (b b' : bytes) (off e : nat) : Prop :=
  List.length b' = List.length b /\ (off <= e)%nat /\ (e <= List.length b)%nat /\
  firstn off b' = firstn off b /\ skipn e b' = skipn e b.

Lemma p_string_spec s off t :
  skipn off (p_buf s) = 34 :: t ->
  match q_str (S (List.length t)) t with
  | Ok (str, rest) =>
      exists e s', p_string s off = POk (str, (S off + List.length str)%nat, e) s'
        /\ skipn e (p_buf s') = rest
        /\ frame (p_buf s) (p_buf s') (S off) e
        /\ (S off + List.length str < e)%nat
        /\ firstn (List.length str) (skipn (S off) (p_buf s')) = str
        /\ p_act s' = p_act s
        /\ p_log s' = (S off, (S off + List.length str)%nat, str) :: p_log s
  | Err e => p_string s off = PErr e (set_buf s (left_by_str (p_buf s) off))
  | _ => False
  end.
Proof.
  intros Hs.
  assert (Hlen : (off < List.length (p_buf s))%nat).
  { destruct (Nat.ltb_spec off (List.length (p_buf s))); [assumption|].
    rewrite skipn_all2 in Hs by assumption. discriminate. }
  destruct (skipn_decomp _ _ _ Hs ltac:(lia)) as (A0 & Hb & HA0).
  destruct s as [b act log]. cbn [p_buf] in *. unfold p_string. cbn [p_buf].
  unfold parse_str.
  set (A := A0 ++ [34]).
  assert (HbA : b = A ++ [] ++ t) by (unfold A; rewrite <- app_assoc; exact Hb).
  assert (HA : List.length A = S off) by (unfold A; rewrite app_length; simpl; lia).
  assert (Hlb : List.length b = (S off + List.length t)%nat).
  { rewrite HbA, app_length. simpl. lia. }
  pose proof (parse_str_loop_spec (S (List.length b)) A [] t (S off) ltac:(lia)) as P.
  rewrite <- HbA in P. cbn [List.length] in P. rewrite HA in P. rewrite Nat.add_0_r in P.
  rewrite (q_str_fuel (S (List.length b)) (S (List.length t))) in P by lia.
  destruct (q_str_total (S (List.length t)) t ltac:(lia)) as [(str & rest & E)|(e & E)];
    rewrite E in *; [|rewrite P; reflexivity].
  destruct P as (G' & HP & HL & HG1 & u & Hu).
  rewrite HP. cbn [lift].
  rewrite bslice_app by lia. cbn [lift].
  eexists; eexists; split.
  { f_equal. f_equal. f_equal. lia. }
  cbn [p_buf p_act p_log set_buf log_slice].
  assert (Hrest : (List.length t = List.length u + List.length rest)%nat).
  { rewrite Hu, app_length. reflexivity. }
  assert (HG' : (List.length str + List.length G' = List.length u)%nat).
  { rewrite HbA in HL. rewrite !app_length in HL. cbn [List.length] in HL. lia. }
  assert (Hskip : skipn (S off + List.length str + List.length G') (A ++ str ++ G' ++ rest) = rest).
  { rewrite !app_assoc. apply skipn_app_at. rewrite !app_length. lia. }
  repeat split.
  - exact Hskip.
  - exact HL.
  - lia.
  - lia.
  - rewrite HbA. rewrite !firstn_app_at by lia. reflexivity.
  - rewrite Hskip. rewrite HbA, Hu. cbn [app]. rewrite app_assoc.
    symmetry. apply skipn_app_at. rewrite app_length. lia.
  - lia.
  - rewrite skipn_app_at by lia. apply firstn_app_len.
  - f_equal. f_equal. f_equal. lia.
Qed.
