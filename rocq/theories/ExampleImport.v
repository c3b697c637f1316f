(** Go data on which Import and encoding/json differ, and one on which they do
    not. *)
From Verif Require Import Base Utf8 Float64 Value Scan Unmarshal Opt Marshal Access Path Edit Iter Base64 GoValue Import
  SpecJson SpecValue SpecNil SpecImport SortProof ImportProof.

(** An exported field with a tag. *)
Definition fld (name tag : string) : gfield := GField (bs name) false true false (bs tag).
(** An embedded field; [st]: a struct or a pointer to one. *)
Definition emb (name tag : string) (st : bool) : gfield := GField (bs name) true true st (bs tag).

Lemma parts tag name opts : split_comma (bs tag) = bs name :: opts -> tag_parts (bs tag) (bs name) opts.
Proof. intros H. pose proof (join_split (bs tag)) as (H1 & _ & H2). rewrite H in H1, H2. split; [now symmetry|assumption]. Qed.

Definition one_field (name tag : string) (g : gov) : gov := GStruct [(fld name tag, g)].

Lemma one_enc name tag key opts g t : split_comma (bs tag) = bs key :: opts -> bs tag <> bs "-" -> Forall name_char (bs key) ->
  ~ (In (bs "omitempty") opts /\ empty_value g) -> ~ (In (bs "string") opts /\ quotable g) -> enc false g t ->
  enc false (one_field name tag g) (TObj [(field_key (fld name tag) (bs key), t)]).
Proof.
  intros H1 H2 H3 H4 H5 H6. apply enc_struct; [|repeat constructor; intros []]. apply enc_field with (opts := opts); auto.
  - now apply parts.
  - tauto.
  - constructor.
Qed.

(** [g] is [t] for encoding/json, but Import yields [v], which is something
    else. *)
Definition differs (E : Env) (W : World) (g : gov) (t : tree) (v : V) : Prop :=
  enc false g t /\ import E W opt0 [] g = Ok (v, None) /\ ~ shows_tree E t v.
Definition obj1 (k : string) (x : V) : V := VObj 1 [(bs k, (1, x))] None.

Ltac chars := repeat constructor; cbn; intros; discriminate || lia.
Ltac missing k := let H := fresh in intros H; apply shows_obj in H as (_ & H & _); destruct (H k); cbn in *; intuition discriminate.
Ltac value := let H := fresh in intros H; apply shows_obj in H as (_ & _ & H); inversion H as [|? ? (? & ? & [G|[]] & Hs) _]; subst; cbn [fst snd] in *; injection G as <- <-; cbn [shows_tree] in Hs.
Ltac noopt := let H := fresh in intros ([H|[]] & _); discriminate.

Lemma omit_pointer E W : differs E W (one_field "P" "p,omitempty" (GPtr (Some (GInt 0)))) (TObj [(bs "p", TInt 0)]) (VObj 0 [] None).
Proof.
  split; [|split; [reflexivity|missing (bs "p")]].
  apply (one_enc "P" "p,omitempty" "p" [bs "omitempty"]); [reflexivity|discriminate|chars| |noopt|].
  - intros (_ & H). discriminate.
  - apply enc_ptr, enc_int.
Qed.
Lemma omit_map E W : differs E W (one_field "M" "m,omitempty" (GMap (Some [(KStr (bs "a"), GInt 0)])))
  (TObj [(bs "m", TObj [(bs "a", TInt 0)])]) (obj1 "m" (VObj 0 [] None)).
Proof.
  split; [|split; [reflexivity|]].
  - apply (one_enc "M" "m,omitempty" "m" [bs "omitempty"]); [reflexivity|discriminate|chars| |noopt|].
    + intros (_ & [H|H]); discriminate.
    + apply enc_map; repeat constructor. intros [].
  - value. destruct Hs as (_ & Hs & _). apply (Hs (bs "a")). now left.
Qed.
Lemma omit_marshaler E W : differs E W (one_field "J" "j,omitempty" (GJson (MOut (Ok (bs "false")))))
  (TObj [(bs "j", TDoc (JBool false))]) (VObj 0 [] None).
Proof.
  split; [|split; [vm_compute; reflexivity|missing (bs "j")]].
  apply (one_enc "J" "j,omitempty" "j" [bs "omitempty"]); [reflexivity|discriminate|chars| |noopt|].
  - intros (_ & []).
  - apply enc_json. exists [], (bs "false"), []. repeat split; constructor.
Qed.
Lemma omit_array E W : differs E W (one_field "A" "a,omitempty" (GArray [])) (TObj []) (obj1 "a" (VArr [])).
Proof.
  split; [|split; [reflexivity|missing (bs "a")]]. apply enc_struct; [|constructor].
  apply enc_omitted with (name := bs "a") (opts := [bs "omitempty"]); auto; [now apply parts|now left|reflexivity|constructor].
Qed.
Lemma string_slice E W : differs E W (one_field "S" "s,string" (GSlice (Some [GBool true])))
  (TObj [(bs "s", TArr [TBool true])]) (obj1 "s" (VArr [VStr (bs "true")])).
Proof.
  split; [|split; [reflexivity|]].
  - apply (one_enc "S" "s,string" "s" [bs "string"]); [reflexivity|discriminate|chars|noopt| |].
    + intros (_ & []).
    + apply enc_slice. repeat constructor.
  - value. now destruct Hs.
Qed.
Lemma string_string E W : differs E W (one_field "S" "s,string" (GStr (bs "x")))
  (TObj [(bs "s", TQuoted (TStr (bs "x")))]) (obj1 "s" (VStr (bs "x"))).
Proof.
  split; [|split; [reflexivity|]].
  - apply enc_struct; [|repeat constructor; intros []].
    apply (enc_quoted false (fld "S" "s,string") (GStr (bs "x")) [] [] (TStr (bs "x")) (bs "s") [bs "string"]); auto; try discriminate; try (constructor; fail).
    + now apply parts.
    + chars.
    + noopt.
    + now left.
  - value. destruct Hs as (b & Hs & _). discriminate.
Qed.
Lemma nil_slice E W : differs E W (GSlice None) TNull (VArr []).
Proof. split; [constructor|split; [reflexivity|intros []]]. Qed.
Lemma sort_one {A} W less (x : A) : go_sort W less [x] = [x].
Proof. apply Permutation_length_1_inv, Permutation_sym, go_sort_perm. Qed.
Lemma range_one {A} W p (x : A) : go_range W p [x] = [x].
Proof. apply Permutation_length_1_inv, Permutation_sym, go_range_perm. Qed.
Lemma embedded_tag E W : differs E W (GStruct [(emb "T" "t" true, one_field "A" "" (GInt 1))])
  (TObj [(bs "t", TObj [(bs "A", TInt 1)])]) (obj1 "A" (new_int64 1)).
Proof.
  split; [|split; [|missing (bs "t")]]. apply enc_struct; [|repeat constructor; intros []].
  apply (enc_field false (emb "T" "t" true) (one_field "A" "" (GInt 1)) [] [] (TObj [(bs "A", TInt 1)]) (bs "t") []); auto; try discriminate; try (constructor; fail).
  - right. right. discriminate.
  - now apply parts.
  - chars.
  - intros ([] & _).
  - intros ([] & _).
  - apply (one_enc "A" "" "" []); try reflexivity; try discriminate; try constructor; intros ([] & _).
  - unfold import. cbn -[go_sort go_range]. rewrite range_one, sort_one. reflexivity.
Qed.
Lemma embedded_nil E W : differs E W (GStruct [(emb "T" "" true, GPtr None)]) (TObj []) (obj1 "T" VNull).
Proof.
  split; [|split; [reflexivity|missing (bs "T")]]. apply enc_struct; [|constructor].
  apply enc_embedded_nil with (opts := []); auto; try discriminate; [now apply (parts "" "" [])|constructor].
Qed.
Lemma trimmed E W : differs E W (one_field "A" " a" (GBool true)) (TObj [(bs " a", TBool true)]) (obj1 "a" (VBool true)).
Proof.
  split; [|split; [reflexivity|missing (bs "a")]].
  apply (one_enc "A" " a" " a" []); [reflexivity|discriminate|chars|intros ([] & _)|intros ([] & _)|constructor].
Qed.
Lemma dash E W : differs E W (one_field "A" "-," (GBool true)) (TObj [(bs "-", TBool true)]) (VObj 0 [] None).
Proof.
  split; [|split; [reflexivity|missing (bs "-")]].
  apply (one_enc "A" "-," "-" [[]]); [reflexivity|discriminate|chars|noopt|noopt|constructor].
Qed.
Lemma nil_value E W : differs E W (GSlice (Some [GVal VNil])) (TArr [TNull]) (VArr [VNil]) /\
  forall d opts, marshal E W d opts (VArr [VNil]) = Panic.
Proof.
  split; [split; [|split; [reflexivity|intros ([] & _)]]|reflexivity]. apply enc_slice. repeat constructor.
Qed.

(** An unexported type with a method MarshalJSON, embedded *)
Definition hidden : gov := GStruct [(GField (bs "m") true false false [], GJson (MOut (Ok (bs "1"))))].
Lemma hidden_panics E W d opts : enc false hidden (TObj []) /\ import E W d opts hidden = Panic.
Proof.
  split; [|reflexivity]. apply enc_struct; [|constructor]. apply enc_skip; [|constructor]. left. split; [reflexivity|now right].
Qed.

(** *** A struct on which they agree *)
Definition agreed : gov := GStruct
  [(fld "A" "a,omitempty", GInt 5);
   (fld "B" "", GSlice (Some [GStr (bs "x"); GPtr None; GPtr (Some (GBool false))]));
   (fld "C" "c,string", GBool true);
   (fld "D" ",omitempty", GStr []);
   (GField (bs "u") false false false [], GOther);
   (emb "T" "" true, GPtr (Some (one_field "E" "e" (GMap (Some [(KInt (-7), GUint 3)])))));
   (fld "F" "-", GOther)].
Definition agreed_tree : tree := TObj
  [(bs "a", TInt 5);
   (bs "B", TArr [TStr (bs "x"); TNull; TBool false]);
   (bs "c", TQuoted (TBool true));
   (bs "e", TObj [(bs "-7", TInt 3)])].

Lemma visible_no_space s : Forall (fun c => 33 <= c < 127) s -> no_space_ends s.
Proof.
  intros H e He. rewrite Forall_forall in H.
  assert (Hb : exists c r, e = c :: r /\ ~ 33 <= c < 127) by (cbn [In] in He; repeat (destruct He as [<-|He]; [do 2 eexists; split; [reflexivity|lia]|]); destruct He).
  destruct Hb as (c & r & -> & Hc). split; intros r' ->; apply Hc, H; [now left|]. apply in_or_app. right. now left.
Qed.
Lemma alike_tag ign f x A name opts : gf_name f <> bs "-" -> split_comma (gf_tag f) = name :: opts -> Forall (fun c => 33 <= c < 127) name ->
  (name = bs "-" -> opts = []) ->
  (gf_tag f = bs "-" \/ gf_exported f = false /\ gf_anon f = false \/
   gf_anon f = true /\ gf_struct f = true /\ name = [] /\
     (struct_of x <> None /\ A \/
      x = GPtr None /\ ign = false /\ (In (bs "omitempty") opts \/ ~ letter_first (gf_name f))) \/
   gf_exported f = true /\ (gf_anon f = true -> gf_struct f = false /\ letter_first (gf_name f) /\ single x) /\
     (In (bs "omitempty") opts /\ ign = false /\ hollow x \/
      A /\ (In (bs "omitempty") opts -> ign = false -> not_empty x) /\ (In (bs "string") opts -> quoted_alike x))) ->
  field_alike ign f x A.
Proof.
  intros Hn Hs Hv Hd Hc. split; [assumption|]. intros name' opts' Ht. apply tag_parts_split in Ht. rewrite Hs in Ht. injection Ht as <- <-.
  split; [now apply visible_no_space|]. split; assumption.
Qed.

Lemma agreed_alike : alike false agreed.
Proof.
  assert (P : forall (a b : Prop), a -> b -> a /\ b) by auto.
  cbn [alike agreed]. repeat match goal with |- field_alike _ _ _ _ /\ _ => apply P end; try exact I.
  - apply (alike_tag _ _ _ _ (bs "a") [bs "omitempty"]); [discriminate|reflexivity|chars|discriminate|].
    right. right. right. split; [reflexivity|]. split; [discriminate|]. right. split; [split; [discriminate|reflexivity]|]. split; [discriminate|].
    intros [H|[]]. discriminate.
  - apply (alike_tag _ _ _ _ [] []); [discriminate|reflexivity|chars|reflexivity|].
    right. right. right. split; [reflexivity|]. split; [discriminate|]. right. split; [repeat split|]. split; intros [].
  - apply (alike_tag _ _ _ _ (bs "c") [bs "string"]); [discriminate|reflexivity|chars|discriminate|].
    right. right. right. split; [reflexivity|]. split; [discriminate|]. right. split; [exact I|]. split; [intros [H|[]]; discriminate|intros _; exact I].
  - apply (alike_tag _ _ _ _ [] [bs "omitempty"]); [discriminate|reflexivity|chars|discriminate|].
    right. right. right. split; [reflexivity|]. split; [discriminate|]. left. split; [now left|]. split; [reflexivity|]. split; [reflexivity|exact I].
  - apply (alike_tag _ _ _ _ [] []); [discriminate|reflexivity|chars|discriminate|]. right. left. split; reflexivity.
  - apply (alike_tag _ _ _ _ [] []); [discriminate|reflexivity|chars|reflexivity|].
    right. right. left. split; [reflexivity|]. split; [reflexivity|]. split; [reflexivity|]. left. split; [discriminate|].
    cbn [alike one_field]. apply P; [|exact I]. apply (alike_tag _ _ _ _ (bs "e") []); [discriminate|reflexivity|chars|reflexivity|].
    right. right. right. split; [reflexivity|]. split; [discriminate|]. right. split; [repeat split; discriminate|]. split; intros [].
  - apply (alike_tag _ _ _ _ (bs "-") []); [discriminate|reflexivity|chars|reflexivity|]. left. reflexivity.
Qed.

Lemma agreed_enc : enc false agreed agreed_tree.
Proof.
  apply enc_struct; [|cbn; repeat (constructor; [cbn; intuition discriminate|]); constructor].
  apply (enc_field false (fld "A" "a,omitempty") (GInt 5) _ _ (TInt 5) (bs "a") [bs "omitempty"]); auto; try discriminate; [now apply parts|chars| |noopt|constructor|].
  { intros (_ & _ & H). discriminate. }
  apply (enc_field false (fld "B" "") _ _ _ (TArr [TStr (bs "x"); TNull; TBool false]) [] []); auto; try discriminate;
    [now apply (parts "" "" [])|intros ([] & _)|intros ([] & _)|apply enc_slice; repeat constructor|].
  apply (enc_quoted false (fld "C" "c,string") (GBool true) _ _ (TBool true) (bs "c") [bs "string"]); auto; try discriminate;
    [now apply parts|chars|noopt|now left|exact I|constructor|].
  apply (enc_omitted false (fld "D" ",omitempty") (GStr []) _ _ [] [bs "omitempty"]); auto; [now apply (parts ",omitempty" "" [bs "omitempty"])|now left|reflexivity|].
  apply enc_skip; [left; split; [reflexivity|now left]|].
  apply (enc_embedded false (emb "T" "" true) (GPtr (Some (one_field "E" "e" (GMap (Some [(KInt (-7), GUint 3)])))))
           [(fld "E" "e", GMap (Some [(KInt (-7), GUint 3)]))] _ [(bs "e", TObj [(bs "-7", TInt 3)])] [] []); auto; try discriminate; [now apply (parts "" "" [])| |].
  - apply (enc_field false (fld "E" "e") _ [] [] (TObj [(bs "-7", TInt 3)]) (bs "e") []); auto; try discriminate; [now apply parts|chars|intros ([] & _)|intros ([] & _)| |constructor].
    apply enc_map; repeat constructor. intros [].
  - apply enc_skip; [right; reflexivity|constructor].
Qed.
