(** Specification of Import: the JSON that encoding/json produces for a Go value
    (after the documentation of json.Marshal), and when a *V shows it.  Nothing
    here depends on the model of Import. *)
From Verif Require Import Base Float64 Value GoValue SpecJson SpecValue SpecNil SpecBase64 SpecPath.

(** JSON with the scalars as Go has them.  [TQuoted t]: the JSON text of [t], as
    a string (option "string").  [TDoc j]: the output of a json.Marshaler, as
    parsed.  [TVal v]: an embedded *V. *)
Inductive tree :=
| TNull
| TBool (b : bool)
| TInt (z : Z)
| TFloat64 (f : spec_float)
| TFloat32 (f : spec_float)
| TStr (s : bytes)
| TArr (l : list tree)
| TObj (l : list (bytes * tree))
| TQuoted (t : tree)
| TDoc (j : jv)
| TVal (v : V).

(** *** json.Marshal *)

(** The text of a key. *)
Definition key_text (k : gkey) : bytes :=
  match k with KStr s => s | KInt z => format_int z | KUint z => format_int z end.

(** The parts of a tag: [tag] is [p], or [p] and the options behind commas. *)
Fixpoint join_comma (ps : list bytes) : bytes :=
  match ps with
  | [] => []
  | [p] => p
  | p :: r => p ++ 44 :: join_comma r
  end.
Definition tag_parts (tag name : bytes) (opts : list bytes) : Prop :=
  tag = join_comma (name :: opts) /\ Forall (fun p => ~ In 44 p) (name :: opts).

(** The key under which the field stands, given the name in the tag. *)
Definition field_key (f : gfield) (name : bytes) : bytes := match name with [] => gf_name f | _ => name end.

(** "false, 0, a nil pointer, a nil interface value, and any array, slice, map, or
    string of length zero" *)
Definition empty_value (g : gov) : Prop :=
  match g with
  | GBool b => b = false
  | GInt z | GUint z => z = 0
  | GFloat64 f | GFloat32 f => exists s, f = S754_zero s
  | GStr s => s = []
  | GArray l => l = []
  | GSlice l => l = None \/ l = Some []
  | GBytes b => b = None \/ b = Some []
  | GMap m => m = None \/ m = Some []
  | GPtr p => p = None
  | GVal v => v = VNil
  | GIface g => g = GInvalid
  | GJson MNilPtr | GJson MNilIface | GText MNilPtr | GText MNilIface => True
  | _ => False
  end.

(** The option "string" applies to fields of these kinds, and to pointers to
    them. *)
Definition quotable (g : gov) : Prop :=
  match g with
  | GBool _ | GInt _ | GUint _ | GFloat64 _ | GFloat32 _ | GStr _ => True
  | GPtr (Some (GBool _ | GInt _ | GUint _ | GFloat64 _ | GFloat32 _ | GStr _)) => True
  | _ => False
  end.

(** The fields of a struct or pointer to a struct. *)
Definition struct_of (g : gov) : option (list (gfield * gov)) :=
  match g with GStruct fs | GPtr (Some (GStruct fs)) => Some fs | _ => None end.

(** The characters that may stand in a name (isValidTag); every byte of a
    character outside ASCII is taken for a letter. *)
Definition name_char (c : Z) : Prop := 32 <= c /\ c <> 34 /\ c <> 39 /\ c <> 44 /\ c <> 92 /\ c <> 96 /\ c <> 127.

(** [enc ign g t]: json.Marshal turns [g] into [t]; with [ign] the option
    omitempty has no effect (OptIgnoreOmitempty).  Left out: structs in which two
    fields compete for a name; names in tags that encoding/json ignores. *)
Inductive enc (ign : bool) : gov -> tree -> Prop :=
| enc_invalid : enc ign GInvalid TNull
| enc_bool b : enc ign (GBool b) (TBool b)
| enc_int z : enc ign (GInt z) (TInt z)
| enc_uint z : enc ign (GUint z) (TInt z)
| enc_float64 f : finite64 f -> enc ign (GFloat64 f) (TFloat64 f)
| enc_float32 f : finite64 f -> enc ign (GFloat32 f) (TFloat32 f)
| enc_array l ts : Forall2 (enc ign) l ts -> enc ign (GArray l) (TArr ts)
| enc_slice_nil : enc ign (GSlice None) TNull
| enc_slice l ts : Forall2 (enc ign) l ts -> enc ign (GSlice (Some l)) (TArr ts)
| enc_bytes_nil : enc ign (GBytes None) TNull
| enc_bytes b s : b64_text (fun r => r = 0) s b -> enc ign (GBytes (Some b)) (TStr s)
| enc_str s : enc ign (GStr s) (TStr s)
| enc_map_nil : enc ign (GMap None) TNull
| enc_map m ms :
    Forall2 (fun (e : gkey * gov) (n : bytes * tree) => fst n = key_text (fst e) /\ enc ign (snd e) (snd n)) m ms ->
    NoDup (map fst ms) -> enc ign (GMap (Some m)) (TObj ms)
| enc_ptr_nil : enc ign (GPtr None) TNull
| enc_ptr g t : enc ign g t -> enc ign (GPtr (Some g)) t
| enc_iface g t : enc ign g t -> enc ign (GIface g) t
| enc_struct fs ms : enc_fields ign fs ms -> NoDup (map fst ms) -> enc ign (GStruct fs) (TObj ms)
| enc_val_nil : enc ign (GVal VNil) TNull
| enc_val v : v <> VNil -> enc ign (GVal v) (TVal v)
| enc_json_nil m : m = MNilPtr \/ m = MNilIface -> enc ign (GJson m) TNull
| enc_json b j : json_doc b j -> enc ign (GJson (MOut (Ok b))) (TDoc j)
| enc_text_nil m : m = MNilPtr \/ m = MNilIface -> enc ign (GText m) TNull
| enc_text b : enc ign (GText (MOut (Ok b))) (TStr b)
with enc_fields (ign : bool) : list (gfield * gov) -> list (bytes * tree) -> Prop :=
| enc_nil : enc_fields ign [] []
| enc_skip f g fs ms :
    (* unexported fields, embedded or not; fields with the tag "-" *)
    gf_exported f = false /\ (gf_anon f = false \/ gf_struct f = false) \/ gf_tag f = bs "-" ->
    enc_fields ign fs ms -> enc_fields ign ((f, g) :: fs) ms
| enc_embedded f g gs fs ns ms opts :
    (* the fields of an embedded struct *)
    gf_anon f = true -> gf_struct f = true -> gf_tag f <> bs "-" -> tag_parts (gf_tag f) [] opts ->
    struct_of g = Some gs -> enc_fields ign gs ns -> enc_fields ign fs ms ->
    enc_fields ign ((f, g) :: fs) (ns ++ ms)
| enc_embedded_nil f fs ms opts :
    gf_anon f = true -> gf_struct f = true -> gf_tag f <> bs "-" -> tag_parts (gf_tag f) [] opts ->
    enc_fields ign fs ms -> enc_fields ign ((f, GPtr None) :: fs) ms
| enc_omitted f g fs ms name opts :
    gf_exported f = true -> gf_anon f = false \/ gf_struct f = false \/ name <> [] ->
    tag_parts (gf_tag f) name opts -> In (bs "omitempty") opts -> ign = false -> empty_value g ->
    enc_fields ign fs ms -> enc_fields ign ((f, g) :: fs) ms
| enc_field f g fs ms t name opts :
    gf_exported f = true -> gf_anon f = false \/ gf_struct f = false \/ name <> [] ->
    gf_tag f <> bs "-" -> tag_parts (gf_tag f) name opts -> Forall name_char name ->
    ~ (In (bs "omitempty") opts /\ ign = false /\ empty_value g) -> ~ (In (bs "string") opts /\ quotable g) ->
    enc ign g t -> enc_fields ign fs ms ->
    enc_fields ign ((f, g) :: fs) ((field_key f name, t) :: ms)
| enc_quoted f g fs ms t name opts :
    gf_exported f = true -> gf_anon f = false \/ gf_struct f = false \/ name <> [] ->
    gf_tag f <> bs "-" -> tag_parts (gf_tag f) name opts -> Forall name_char name ->
    ~ (In (bs "omitempty") opts /\ ign = false /\ empty_value g) -> In (bs "string") opts -> quotable g ->
    enc ign g t -> enc_fields ign fs ms ->
    enc_fields ign ((f, g) :: fs) ((field_key f name, TQuoted t) :: ms).

(** *** What a *V shows *)

(** An integer as a number value. *)
Definition int_value (z : Z) (n : num) (src : bytes) : Prop :=
  src = format_int z /\ n_flt n = false /\ n_neg n = (z <? 0) /\ n_f64 n = f_of_Z z /\
  (- two63 <= z < two63 -> n_i64 n = z) /\ (0 <= z < two64 -> n_u64 n = z).

(** The text that strconv.FormatFloat gives with the shortest precision. *)
Definition float_text (E : Env) (f : spec_float) (bits : Z) (s : bytes) : Prop :=
  s = fmt_float E f 101 (-1) bits \/ s = fmt_float E f 102 (-1) bits.

Definition quoted_text (E : Env) (t : tree) (s : bytes) : Prop :=
  match t with
  | TBool b => s = if b then bs "true" else bs "false"
  | TInt z => s = format_int z
  | TFloat64 f => float_text E f 64 s
  | TFloat32 f => float_text E f 32 s
  | TStr x => exists b, s = 34 :: b ++ [34] /\ str_body b x
  | _ => False
  end.

Fixpoint shows_tree (E : Env) (t : tree) (v : V) {struct t} : Prop :=
  match t, v with
  | TNull, VNull => True
  | TBool b, VBool b' => b = b'
  | TInt z, VNum n src => int_value z n src
  | TFloat64 f, VNum n src => n_f64 n = f /\ float_text E f 64 src
  | TFloat32 f, VNum n src => n_f64 n = f /\ float_text E f 32 src
  | TStr s, VStr s' => s = s'
  | TQuoted t, VStr s => quoted_text E t s
  | TDoc j, v => denotes j v
  | TVal w, v => json_typed v /\ forget v = forget w
  | TArr ts, VArr l =>
    (fix go (ts : list tree) (l : list V) : Prop :=
       match ts, l with
       | [], [] => True
       | t :: ts', x :: l' => shows_tree E t x /\ go ts' l'
       | _, _ => False
       end) ts l
  | TObj ms, VObj _ kvs _ =>
    NoDup (map fst kvs) /\ (forall k, In k (map fst kvs) <-> In k (map fst ms)) /\
    (fix go (ms : list (bytes * tree)) : Prop :=
       match ms with
       | [] => True
       | (k, t) :: r => (exists id x, In (k, (id, x)) kvs /\ shows_tree E t x) /\ go r
       end) ms
  | _, _ => False
  end.

(** *** Where Import follows encoding/json *)

(** The name in the tag has no white space at its ends. *)
Definition no_space_ends (s : bytes) : Prop :=
  forall e, In e [[9]; [10]; [11]; [12]; [13]; [32]; [194; 133]; [194; 160]; [225; 154; 128];
     [226; 128; 128]; [226; 128; 129]; [226; 128; 130]; [226; 128; 131]; [226; 128; 132];
     [226; 128; 133]; [226; 128; 134]; [226; 128; 135]; [226; 128; 136]; [226; 128; 137];
     [226; 128; 138]; [226; 128; 168]; [226; 128; 169]; [226; 128; 175]; [226; 129; 159];
     [227; 128; 128]] ->
    (forall r, s <> e ++ r) /\ (forall r, s <> r ++ e).

Definition letter_first (s : bytes) : Prop := exists c r, s = c :: r /\ 65 <= c <= 90.

(** A value that is not taken for empty, nor anything that Import looks at when
    it decides (it follows pointers and goes into maps). *)
Fixpoint not_empty (g : gov) : Prop :=
  match g with
  | GBool b => b = true
  | GInt z | GUint z => z <> 0
  | GFloat64 f | GFloat32 f => forall s, f <> S754_zero s
  | GStr s => s <> []
  | GArray l => l <> []
  | GSlice l => l <> None /\ l <> Some []
  | GBytes b => b <> None /\ b <> Some []
  | GMap (Some m) =>
    m <> [] /\
    (fix go (m : list (gkey * gov)) : Prop := match m with [] => True | (_, x) :: r => not_empty x /\ go r end) m
  | GPtr (Some x) => not_empty x
  | GIface x => not_empty x
  | GStruct _ => True
  | GVal v => v <> VNil
  | GText (MOut (Ok b)) => b <> []
  | _ => False
  end.

(** Empty values of which Import thinks so, too. *)
Definition hollow (g : gov) : Prop :=
  empty_value g /\ match g with GArray _ | GText MNilIface => False | _ => True end.

(** The values to which Import applies the option "string" as encoding/json
    does. *)
Definition quoted_alike (g : gov) : Prop :=
  match g with
  | GBool _ | GInt _ | GUint _ | GFloat64 _ | GFloat32 _ => True
  | GPtr (Some (GBool _ | GInt _ | GUint _ | GFloat64 _ | GFloat32 _)) => True
  | GInvalid | GPtr None | GMap None | GStruct _ | GVal _ => True
  | _ => False
  end.

(** Values that never are objects, for embedded fields that are no structs. *)
Definition single (g : gov) : Prop :=
  match g with
  | GBool _ | GInt _ | GUint _ | GFloat64 _ | GFloat32 _ | GStr _ | GBytes _ | GSlice _ | GArray _ => True
  | _ => False
  end.

(** A field that Import treats like encoding/json; [A]: so it does with the
    value of the field. *)
Definition field_alike (ign : bool) (f : gfield) (x : gov) (A : Prop) : Prop :=
  (* the name of a field is a Go identifier *)
  gf_name f <> bs "-" /\
  forall name opts, tag_parts (gf_tag f) name opts ->
  no_space_ends name /\ (name = bs "-" -> opts = []) /\
  ((* not a field of the JSON object *)
   gf_tag f = bs "-" \/ gf_exported f = false /\ gf_anon f = false \/
   (* an embedded struct without a name in the tag; a nil pointer only if the
      type is not exported or there is an omitempty *)
   gf_anon f = true /\ gf_struct f = true /\ name = [] /\
     (struct_of x <> None /\ A \/
      x = GPtr None /\ ign = false /\ (In (bs "omitempty") opts \/ ~ letter_first (gf_name f))) \/
   (* any other field *)
   gf_exported f = true /\ (gf_anon f = true -> gf_struct f = false /\ letter_first (gf_name f) /\ single x) /\
     (In (bs "omitempty") opts /\ ign = false /\ hollow x \/
      A /\ (In (bs "omitempty") opts -> ign = false -> not_empty x) /\ (In (bs "string") opts -> quoted_alike x))).

(** The data on which Import does what encoding/json does. *)
Fixpoint alike (ign : bool) (g : gov) : Prop :=
  match g with
  | GInt z => - two63 <= z < two63
  | GUint z => 0 <= z < two64
  | GArray l | GSlice (Some l) =>
    (fix go (l : list gov) : Prop := match l with [] => True | x :: r => alike ign x /\ go r end) l
  | GSlice None | GBytes None => False
  | GBytes (Some b) => Forall is_byte b
  | GMap (Some m) =>
    (fix go (m : list (gkey * gov)) : Prop := match m with [] => True | (_, x) :: r => alike ign x /\ go r end) m
  | GPtr (Some (GVal _)) => False
  | GPtr (Some x) => alike ign x
  | GIface x => alike ign x
  | GVal v => json_typed v
  | GJson (MOut (Ok b)) => forall j, json_doc b j -> all_lits lit_ok j
  | GJson _ | GText MNilPtr => False
  | GStruct fs =>
    (fix go (fs : list (gfield * gov)) : Prop :=
       match fs with [] => True | (f, x) :: r => field_alike ign f x (alike ign x) /\ go r end) fs
  | _ => True
  end.

(** *** Where Import does not panic *)

(** The methods do not panic, and unexported embedded fields hold structs. *)
Definition calm (m : gmethod) : Prop := match m with MOut Panic | MOut Fuel => False | _ => True end.
Fixpoint tame (g : gov) : Prop :=
  match g with
  | GArray l | GSlice (Some l) =>
    (fix go (l : list gov) : Prop := match l with [] => True | x :: r => tame x /\ go r end) l
  | GMap (Some m) =>
    (fix go (m : list (gkey * gov)) : Prop := match m with [] => True | (_, x) :: r => tame x /\ go r end) m
  | GPtr (Some (GVal v)) | GValue v => v <> VNil -> ~ nil_at v
  | GPtr (Some x) => tame x
  | GIface x => tame x
  | GJson m | GText m => calm m
  | GStruct fs =>
    (fix go (fs : list (gfield * gov)) : Prop :=
       match fs with
       | [] => True
       | (f, x) :: r => (gf_exported f = false -> gf_anon f = true -> struct_of x <> None) /\ tame x /\ go r
       end) fs
  | _ => True
  end.
