(** Instances for documents with a nil inside. *)
From Verif Require Import Base Utf8 Float64 Value Scan Unmarshal Opt Marshal Access Path Edit Iter Base64 GoValue Import
  SpecJson SpecValue SpecNil SpecImport SpecFault SpecParts SpecHarbour SortProof ImportProof PartsProof MarshalTotal ExampleWorld ExampleImport ExampleParts.
Local Open Scope Z_scope.

(** An embedded map of an unexported type, with numbers in a slice. *)
Definition hidden_zeros : gov := GStruct [(hid "m" "", GMap (Some [(KStr (bs "a"), GSlice (Some [GInt 0; GInt 1]))]))].

Lemma zeros_become_nil (E : Env) (W : World) : exists g, ~ nilled g /\ ~ harbours g /\
  exists v, import E W opt0 [] g = Ok (v, None) /\ nil_at v /\ forall opts, marshal E W opt0 opts v = Panic.
Proof.
  assert (Hn : forall z, ~ nilled (GInt z) /\ ~ harbours (GInt z)).
  { intros z. split; [intros H; inversion H|]. intros H. inversion H as [? ? ? [?|?]| | | |]; discriminate. }
  exists hidden_zeros. split; [intros H; inversion H|]. split.
  - intros H. inversion H as [? ? ? [?|?]| | | |fs f x Hi Hs Hx]; subst; try discriminate. destruct Hi as [[= <- <-]|[]].
    inversion Hx as [? ? ? [?|?]|m k x Hi Hx'| | |]; subst; try discriminate. destruct Hi as [[= <- <-]|[]].
    inversion Hx' as [l g x [Hg|Hg] Hi Hy| | | |]; subst; try discriminate. injection Hg as <-.
    destruct Hi as [<-|[<-|[]]]; destruct Hy as [Hy|Hy]; now apply Hn in Hy.
  -
    exists (obj1 "a" (VArr [VNil; new_int64 1])). split; [unfold import, hidden_zeros; cbn -[go_sort go_range]; rewrite range_one, sort_one; reflexivity|].
    assert (K : nil_at (obj1 "a" (VArr [VNil; new_int64 1]))).
    { eapply nil_member; [now left|]. eapply nil_element; [now left|]. constructor. }
    split; [exact K|]. intros opts. exact (proj1 (proj2 (marshal_total E W opt0 opts _)) K).
Qed.

Definition with_nil : gov := GStruct
  [(fld "A" "a,omitempty", GMap (Some [(KStr (bs "x"), GIface (GSlice (Some [GInt 1; GPtr (Some (GJson MNilIface))]))); (KStr (bs "y"), GVal VNil)]));
   (fld "B" "-", GInt 1); (fld "b" "", GInt 2)].
Definition without_nil : gov := GStruct [(fld "A" "a", GVal VNil); (fld "B" "-", GSlice (Some [GVal VNil])); (fld "C" "c", GMap (Some [(KStr (bs "y"), GText MNilPtr)]));
  (emb "T" "" false, GStruct [(fld "D" "", GJson MNilPtr); (fld "E" "", GSlice (Some [GPtr None]))])].

Lemma harbour_instances : embeds_structs with_nil /\ distinct with_nil /\ harbours with_nil /\
  embeds_structs without_nil /\ ~ nilled without_nil /\ ~ harbours without_nil.
Proof.
  split; [|split; [|split; [|split; [|split]]]].
  - repeat constructor; discriminate.
  - split.
    + exists [Some (bs "a"); None; Some (bs "b")]. split; [|repeat constructor; intros H; repeat (destruct H as [H|H]; [discriminate|]); destruct H].
      constructor; [|constructor; [|constructor; [|constructor]]].
      * exists [bs "omitempty"]. apply (plain_fld "A" "a,omitempty" "a"); [reflexivity|apply Forall_forall; intros c [<-|[]]; cbn; lia|discriminate].
      * split; [reflexivity|]. right. exists []. now apply parts.
      * exists []. apply (plain_fld "b" "" ""); [reflexivity|constructor|discriminate].
    + repeat constructor; intros H; repeat (destruct H as [H|H]; [discriminate|]); destruct H.
  - eapply harbours_field; [now left| |].
    + split; [now left|]. intros opts H. pose proof (tag_parts_split _ _ _ H) as K. discriminate.
    + eapply harbours_entry; [now left|]. constructor. eapply harbours_element; [now left|right; now left|]. left. constructor. constructor. now right.
  - repeat constructor; discriminate.
  - intros H. inversion H.
  - intros H. inversion H as [? ? ? [?|?]| | | |fs f x Hi Hs Hx]; subst; try discriminate.
    destruct Hi as [[= <- <-]|[[= <- <-]|[[= <- <-]|[[= <- <-]|[]]]]].
    + inversion Hx as [? ? ? [?|?]| | | |]; discriminate.
    + destruct Hs as (_ & Hs). apply (Hs []). now apply parts.
    + inversion Hx as [? ? ? [?|?]|m k x Hi Hx'| | |]; subst; try discriminate. destruct Hi as [[= <- <-]|[]].
      inversion Hx' as [? ? ? [?|?]| | | |]; discriminate.
    + inversion Hx as [? ? ? [?|?]| | | |fs' f x Hi Hs' Hx']; subst; try discriminate. destruct Hi as [[= <- <-]|[[= <- <-]|[]]].
      * inversion Hx' as [? ? ? [?|?]| | | |]; discriminate.
      * inversion Hx' as [l g x [Hg|Hg] Hi Hy| | | |]; subst; try discriminate. injection Hg as <-.
        destruct Hi as [<-|[]]. destruct Hy as [Hy|Hy]; [inversion Hy|]. inversion Hy as [? ? ? [?|?]| | | |]; discriminate.
Qed.
