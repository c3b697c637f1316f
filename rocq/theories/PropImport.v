(** Import (C35) and totality of Marshal (C46). *)
From Verif Require Import Base Utf8 Float64 Value Scan Unmarshal Opt Marshal GoValue Import SpecJson SpecValue SpecNil SpecImport SpecFault
  MarshalTotal ImportProof ImportTotal ImportFault ExampleWorld ExampleImport.

(** C35 in full: for all g and t, if json.Marshal turns g into t then Import
    yields a value that shows t:

      enc (ignores omitempty) g t -> exists v, import E W d opts g = Ok (v, None) /\ shows_tree E t v

    It fails for many kinds of data (below).  It holds for the data described by
    [alike]; excluded there: omitempty on a pointer, map or marshaler that leads
    to something empty, or on an empty array; the option "string" on anything but
    booleans and numbers; nil slices; nil values with methods; embedded structs
    with a name in the tag; embedded nil pointers that are exported and have no
    omitempty; names with white space at the ends; the name "-"; JSON with number
    literals that the parser refuses (C02).  The hypothesis says that
    strconv.FormatFloat never returns the empty string. *)
Theorem C35_import_partial : forall (E : Env) (W : World) (d : opt),
  (forall f fmt bits, fmt_float E f fmt (-1) bits <> []) -> forall opts g t,
  alike (o_ignore_omitempty (combine_options d opts)) g ->
  enc (o_ignore_omitempty (combine_options d opts)) g t ->
  exists v, import E W d opts g = Ok (v, None) /\ shows_tree E t v.
Proof. exact import_alike. Qed.
Print Assumptions C35_import_partial.

Example C35_instance : forall (E : Env) (W : World), (forall f fmt bits, fmt_float E f fmt (-1) bits <> []) ->
  alike false agreed /\ enc false agreed agreed_tree /\
  exists v, import E W opt0 [] agreed = Ok (v, None) /\ shows_tree E agreed_tree v.
Proof.
  intros E W HE. split; [exact agreed_alike|]. split; [exact agreed_enc|].
  exact (import_alike E W opt0 HE [] agreed agreed_tree agreed_alike agreed_enc).
Qed.
Example C35_instance_text :
  (let* (v, e) := import env0 world1 opt0 [] agreed in marshal env0 world1 opt0 [] v)
  = Ok (bs "{""a"":5,""B"":[""x"",null,false],""c"":""true"",""e"":{""-7"":3}}").
Proof. vm_compute. reflexivity. Qed.

(** omitempty drops a pointer to 0, and entries of the map in the field ... *)
Theorem C35_refuted : exists g t v, enc false g t /\ forall (E : Env) (W : World), import E W opt0 [] g = Ok (v, None) /\ ~ shows_tree E t v.
Proof.
  exists (one_field "P" "p,omitempty" (GPtr (Some (GInt 0)))), (TObj [(bs "p", TInt 0)]), (VObj 0 [] None).
  split; [apply (omit_pointer env0 world1)|]. intros E W. apply omit_pointer.
Qed.
Print Assumptions C35_refuted.

(** [differs E W g t v]: json.Marshal turns g into t, Import into v, and that is
    not the same. *)
Theorem C35_omitempty_refuted : forall (E : Env) (W : World),
  differs E W (one_field "M" "m,omitempty" (GMap (Some [(KStr (bs "a"), GInt 0)])))
    (TObj [(bs "m", TObj [(bs "a", TInt 0)])]) (obj1 "m" (VObj 0 [] None)) /\
  differs E W (one_field "J" "j,omitempty" (GJson (MOut (Ok (bs "false")))))
    (TObj [(bs "j", TDoc (JBool false))]) (VObj 0 [] None) /\
  differs E W (one_field "A" "a,omitempty" (GArray [])) (TObj []) (obj1 "a" (VArr [])).
Proof. exact (fun E W => conj (omit_map E W) (conj (omit_marshaler E W) (omit_array E W))). Qed.
Print Assumptions C35_omitempty_refuted.

(** The option "string" reaches the elements of a slice, and has no effect on
    strings. *)
Theorem C35_string_refuted : forall (E : Env) (W : World),
  differs E W (one_field "S" "s,string" (GSlice (Some [GBool true])))
    (TObj [(bs "s", TArr [TBool true])]) (obj1 "s" (VArr [VStr (bs "true")])) /\
  differs E W (one_field "S" "s,string" (GStr (bs "x")))
    (TObj [(bs "s", TQuoted (TStr (bs "x")))]) (obj1 "s" (VStr (bs "x"))).
Proof. exact (fun E W => conj (string_slice E W) (string_string E W)). Qed.
Print Assumptions C35_string_refuted.

(** Embedded structs are flattened even if the tag names them, and a nil pointer
    becomes a null member; names are trimmed; "-," does not stand for the name
    "-". *)
Theorem C35_fields_refuted : forall (E : Env) (W : World),
  differs E W (GStruct [(emb "T" "t" true, one_field "A" "" (GInt 1))])
    (TObj [(bs "t", TObj [(bs "A", TInt 1)])]) (obj1 "A" (new_int64 1)) /\
  differs E W (GStruct [(emb "T" "" true, GPtr None)]) (TObj []) (obj1 "T" VNull) /\
  differs E W (one_field "A" " a" (GBool true)) (TObj [(bs " a", TBool true)]) (obj1 "a" (VBool true)) /\
  differs E W (one_field "A" "-," (GBool true)) (TObj [(bs "-", TBool true)]) (VObj 0 [] None).
Proof. exact (fun E W => conj (embedded_tag E W) (conj (embedded_nil E W) (conj (trimmed E W) (dash E W)))). Qed.
Print Assumptions C35_fields_refuted.

(** A nil slice is [], not null.  A nil *V in a slice is a nil child, on which
    Marshal panics. *)
Theorem C35_nil_refuted : forall (E : Env) (W : World),
  differs E W (GSlice None) TNull (VArr []) /\
  differs E W (GSlice (Some [GVal VNil])) (TArr [TNull]) (VArr [VNil]) /\
  forall d opts, marshal E W d opts (VArr [VNil]) = Panic.
Proof. exact (fun E W => conj (nil_slice E W) (nil_value E W)). Qed.
Print Assumptions C35_nil_refuted.

(** Import does not panic, unless a method does, or an unexported type with a
    method is embedded. *)
Theorem C35_total : forall (E : Env) (W : World) (d : opt) opts g, tame g -> exists v e, import E W d opts g = Ok (v, e).
Proof. exact import_total. Qed.
Print Assumptions C35_total.

Theorem C35_total_refuted : exists g, enc false g (TObj []) /\ forall (E : Env) (W : World) d opts, import E W d opts g = Panic.
Proof. exists hidden. split; [apply (hidden_panics env0 world1 opt0 [])|]. intros E W d opts. apply hidden_panics. Qed.
Print Assumptions C35_total_refuted.

Example C35_total_instance : tame (GStruct [(emb "T" "t" true, GMap (Some [(KInt 1, GOther)])); (GField (bs "u") true false true [], GStruct [])]) /\
  forall E W, import E W opt0 [] (GSlice (Some [GOther])) = Ok (VNotExist, Some EOther).
Proof. split; [|reflexivity]. cbn. repeat split; discriminate. Qed.

(** Import returns an error exactly for the data that cannot be represented, no
    matter how deep it lies (SpecFault.v). *)
Theorem C35_errors : forall (E : Env) (W : World) (d : opt) opts g, tame g -> tidy g ->
  (faulty E W d g -> exists e, import E W d opts g = Ok (VNotExist, Some e)) /\
  (~ faulty E W d g -> exists v, import E W d opts g = Ok (v, None)).
Proof. exact import_error. Qed.
Print Assumptions C35_errors.

(** A marshaler that returns no JSON, deep inside; and the same field marked "-". *)
Example C35_errors_instance : forall (E : Env) (W : World) (d : opt),
  let bad (t : string) := GMap (Some [(KInt 3, GSlice (Some [GPtr (Some (one_field "A" t (GJson (MOut (Ok (bs "{""a"":1,}x"))))))]))]) in
  tame (bad ""%string) /\ tame (bad "-"%string) /\ faulty E W d (bad ""%string) /\ ~ faulty E W d (bad "-"%string) /\
  import E W d [] (bad ""%string) = Ok (VNotExist, Some ErrRawBytesUnrecognized).
Proof.
  intros E W d bad. split; [|split; [|split; [|split]]].
  - cbn. repeat split; discriminate.
  - cbn. repeat split; discriminate.
  - eapply faulty_entry; [now left|]. eapply faulty_slice; [now left|]. apply faulty_ptr.
    eapply faulty_field; [now left| |].
    + split; [now left|]. intros opts H. apply tag_parts_split in H. discriminate.
    + apply faulty_no_json. intros v. vm_compute. discriminate.
  - intros H. inversion H as [| | | | | | | | |? ? ? H1 H2| | |]; subst. destruct H1 as [[= <- <-]|[]].
    inversion H2 as [| | | | | | | |? ? H3 H4| | | |]; subst. destruct H3 as [<-|[]].
    inversion H4 as [| | | | | | | | | |? H5| |]; subst.
    inversion H5 as [| | | | | | | | | | | |? ? ? H6 (_ & H7) _]; subst. destruct H6 as [[= <- <-]|[]].
    apply (H7 []). split; [reflexivity|]. repeat constructor. intros [C|[]]. discriminate.
  - vm_compute. reflexivity.
Qed.

(** C46: Marshal panics if there is a nil inside the value, and else returns text
    or an error. *)
Theorem C46_marshal_total : forall (E : Env) (W : World) (d : opt) opts v,
  (~ nil_at v -> (exists b, marshal E W d opts v = Ok b) \/ (exists e, marshal E W d opts v = Err e)) /\
  (nil_at v -> marshal E W d opts v = Panic) /\
  (~ nil_at v -> exists b, must_marshal E W d opts v = Ok b).
Proof. exact marshal_total. Qed.
Print Assumptions C46_marshal_total.

(** In particular for every value of JSON types, as parsing yields. *)
Theorem C46_typed : forall v, json_typed v -> ~ nil_at v.
Proof. exact typed_not_nil. Qed.
Print Assumptions C46_typed.

Example C46_instance : nil_at (VArr [VNull; VObj 1 [(bs "a", (1, VNil))] None]) /\
  ~ nil_at (VArr [VNotExist; VUnknown]) /\ marshal env0 world1 opt0 [] (VArr [VNotExist; VUnknown]) = Ok (bs "[,]") /\
  (forall n, n_f64 n = S754_nan -> marshal env0 world1 opt0 [] (VNum n []) = Err ErrUnsupportedFloat).
Proof.
  split; [|split; [|split; [reflexivity|]]].
  - eapply nil_element; [right; left; reflexivity|]. eapply nil_member; [left; reflexivity|constructor].
  - intros H. inversion H as [|? x Hi Hx|]; subst. destruct Hi as [<-|[<-|[]]]; inversion Hx.
  - intros n Hn. cbn. unfold marshal_number. rewrite Hn. reflexivity.
Qed.
