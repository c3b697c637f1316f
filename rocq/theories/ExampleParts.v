(** Instances for Import part by part. *)
From Verif Require Import Base Utf8 Float64 Value Scan Unmarshal Opt Marshal Access Path Edit Iter Base64 GoValue Import
  SpecJson SpecValue SpecNil SpecImport SpecParts SortProof ImportProof PartsProof ExampleWorld ExampleImport.
Local Open Scope Z_scope.

(** An embedded field of an unexported type that is not a struct. *)
Definition hid (name tag : string) : gfield := GField (bs name) true false false (bs tag).

Lemma embedded_maps (E : Env) (W : World) :
  differs E W (GStruct [(emb "M" "" false, GMap (Some [(KStr (bs "a"), GInt 1)]))])
    (TObj [(bs "M", TObj [(bs "a", TInt 1)])]) (obj1 "a" (new_int64 1)) /\
  differs E W (GStruct [(hid "m" "", GMap (Some [(KStr (bs "a"), GInt 1); (KStr (bs "b"), GInt 0)]))])
    (TObj []) (obj1 "a" (new_int64 1)).
Proof.
  split; (split; [|split]).
  - apply enc_struct; [|repeat constructor; intros []]. change (bs "M") with (field_key (emb "M" "" false) []). apply enc_field with (opts := []); auto.
    + discriminate.
    + now apply (parts "" "" []).
    + intros ([] & _).
    + intros ([] & _).
    + apply enc_map; repeat constructor. intros [].
    + constructor.
  - unfold import. cbn -[go_sort go_range]. rewrite range_one, sort_one. reflexivity.
  - missing (bs "M").
  - apply enc_struct; [|constructor]. apply enc_skip; [|constructor]. left. split; [reflexivity|now right].
  - unfold import. cbn -[go_sort go_range]. rewrite range_one, sort_one. reflexivity.
  - missing (bs "a").
Qed.

Definition omitted : gov := GStruct
  [(fld "A" "a,omitempty", GStr []); (fld "B" "b,omitempty,string", GSlice (Some [GInt 0; GPtr (Some (GInt 1))]));
   (fld "C" "c,omitempty", GIface (GMap (Some [(KStr (bs "x"), GInt 0); (KStr (bs "y"), GInt 1)])));
   (fld "D" "d,omitempty", GStruct []); (fld "E" "e,omitempty", GPtr None);
   (fld "F" "f,omitempty", GJson (MOut (Ok (bs " { } ")))); (fld "G" "g", GVal VNil)].

Lemma plain_fld name tag key opts : split_comma (bs tag) = bs key :: opts -> Forall (fun c => 33 <= c < 127) (bs key) ->
  field_key (fld name tag) (bs key) <> bs "-" -> plain_field (fld name tag) (field_key (fld name tag) (bs key)) opts.
Proof.
  intros H1 H2 H3. split; [reflexivity|]. split; [reflexivity|]. exists (bs key). split; [now apply parts|]. split; [now apply visible_no_space|auto].
Qed.
Lemma parts_instances : plain_field (fld "A" "a,omitempty") (bs "a") [bs "omitempty"] /\
  plain_field (fld "A" ",string,omitempty") (bs "A") [bs "string"; bs "omitempty"] /\ plain_field (fld "A" "") (bs "A") [] /\
  void env0 world1 opt0 (GPtr (Some (GIface (GJson (MOut (Ok (bs " 0e5 ")))))) ) /\
  ~ void env0 world1 opt0 (GArray []) /\ ~ void env0 world1 opt0 (GStruct []) /\
  lost (GIface (GVal VNotExist)) /\ lost (GJson MNilIface) /\ ~ lost (GText MNilIface).
Proof.
  split; [|split; [|split; [|split; [|split; [|split; [|split; [|split]]]]]]].
  - apply (plain_fld "A" "a,omitempty" "a"); [reflexivity|apply Forall_forall; intros c [<-|[]]; cbn; lia|discriminate].
  - apply (plain_fld "A" ",string,omitempty" "" [bs "string"; bs "omitempty"]); [reflexivity|constructor|discriminate].
  - apply (plain_fld "A" "" ""); [reflexivity|constructor|discriminate].
  - apply void_ptr; [discriminate|]. apply void_iface, void_json. eexists. split; [vm_compute; reflexivity|]. exists false. reflexivity.
  - intros H. apply void_inv in H as [H|[]]. inversion H.
  - intros H. apply void_inv in H as [H|[]]. inversion H.
  - constructor. constructor. left. now right.
  - constructor. now right.
  - intros H. inversion H.
Qed.
