(** Import part by part (C65). *)
From Verif Require Import Base Utf8 Float64 Value Scan Unmarshal Opt Marshal GoValue Import SpecJson SpecValue SpecImport SpecParts
  PartsProof PartsMore PartsRest ExampleWorld ExampleImport ExampleParts.
Open Scope Z_scope.

(** A struct: each field adds the members it would have alone; if several fields
    have the same name, the last one gives the value. *)
Theorem C65_struct : forall (E : Env) (W : World) (d : opt) opts fs vs,
  Forall2 (fun e v => import E W d opts (GStruct [e]) = Ok (v, None)) fs vs ->
  exists v, import E W d opts (GStruct fs) = Ok (v, None) /\ an_object v /\
  forall k x, member v k x <->
    exists a w b, vs = a ++ w :: b /\ member w k x /\ forall w' y, In w' b -> ~ member w' k y.
Proof. exact struct_parts. Qed.
Print Assumptions C65_struct.

(** If it succeeds for the struct it does so for each field. *)
Theorem C65_struct_each : forall (E : Env) (W : World) (d : opt) opts fs v,
  import E W d opts (GStruct fs) = Ok (v, None) ->
  Forall (fun e => exists w, import E W d opts (GStruct [e]) = Ok (w, None)) fs.
Proof. exact struct_each. Qed.
Print Assumptions C65_struct_each.

(** A field that is not embedded: there is no member exactly if the value is a nil
    *V or the like, or with omitempty if it is empty; else there is one, under the
    name in the tag. *)
Theorem C65_field : forall (E : Env) (W : World) (d : opt) o f key opts g v,
  plain_field f key opts -> import E W d o (GStruct [(f, g)]) = Ok (v, None) ->
  an_object v /\
  (lost g \/ (In (bs "omitempty") opts /\ o_ignore_omitempty (combine_options d o) = false /\ void E W d g) <->
   forall k x, ~ member v k x) /\
  (~ (lost g \/ (In (bs "omitempty") opts /\ o_ignore_omitempty (combine_options d o) = false /\ void E W d g)) ->
   exists x, forall k y, member v k y <-> k = key /\ y = x).
Proof. exact field_left_out. Qed.
Print Assumptions C65_field.

(** Its value without options in the tag. *)
Theorem C65_field_value : forall (E : Env) (W : World) (d : opt) o f key opts g v,
  plain_field f key opts -> import E W d o (GStruct [(f, g)]) = Ok (v, None) ->
  ~ In (bs "string") opts -> (~ In (bs "omitempty") opts \/ o_ignore_omitempty (combine_options d o) = true) ->
  exists c, import E W d o g = Ok (c, None) /\ forall k x, member v k x <-> ~ typeless c /\ k = key /\ x = c.
Proof. exact field_value. Qed.
Print Assumptions C65_field_value.

(** Its value with omitempty, unless it is a map: as without. *)
Theorem C65_field_omitempty : forall (E : Env) (W : World) (d : opt) o f f' key opts opts' g v,
  plain_field f key opts -> plain_field f' key opts' ->
  ~ In (bs "omitempty") opts' -> (In (bs "string") opts <-> In (bs "string") opts') -> ~ leads_to_map g ->
  import E W d o (GStruct [(f, g)]) = Ok (v, None) -> (exists k x, member v k x) ->
  import E W d o (GStruct [(f', g)]) = Ok (v, None).
Proof. exact field_omit_same. Qed.
Print Assumptions C65_field_omitempty.

(** Its value with the option "string": for numbers and booleans their text, else
    as without, except that the option reaches what is inside maps and lists
    (below). *)
Theorem C65_field_string : forall (E : Env) (W : World) (d : opt) o f key opts g v c,
  plain_field f key opts -> In (bs "string") opts -> go_scalar g ->
  import E W d o g = Ok (c, None) -> import E W d o (GStruct [(f, g)]) = Ok (v, None) -> (exists k x, member v k x) ->
  exists s, text_of E W d c s /\ forall k x, member v k x <-> k = key /\ x = VStr s.
Proof. exact field_string. Qed.
Print Assumptions C65_field_string.

Theorem C65_field_string_other : forall (E : Env) (W : World) (d : opt) o f f' key opts opts' g,
  plain_field f key opts -> plain_field f' key opts' ->
  (In (bs "omitempty") opts <-> In (bs "omitempty") opts') -> not_quoted g ->
  import E W d o (GStruct [(f, g)]) = import E W d o (GStruct [(f', g)]).
Proof. exact field_string_same. Qed.
Print Assumptions C65_field_string_other.

(** Whether Import succeeds does not depend on the tag; and what is unexported or
    has the name "-" is not looked at. *)
Theorem C65_field_error : forall (E : Env) (W : World) (d : opt) o f key opts g, plain_field f key opts ->
  ((exists v, import E W d o (GStruct [(f, g)]) = Ok (v, None)) <-> (exists c, import E W d o g = Ok (c, None))).
Proof. exact field_fails. Qed.
Print Assumptions C65_field_error.

Theorem C65_field_unseen : forall (E : Env) (W : World) (d : opt) o f g, gf_anon f = false ->
  gf_exported f = false \/ (exists opts, tag_parts (gf_tag f) (bs "-") opts) ->
  import E W d o (GStruct [(f, g)]) = Ok (VObj 0 [] None, None).
Proof. exact field_unseen. Qed.
Print Assumptions C65_field_unseen.

(** An embedded struct, or pointer to one: as if its fields stood there, whatever
    the tag says (unless "-") and whether it is exported or not. *)
Theorem C65_embedded : forall (E : Env) (W : World) (d : opt) o f g gs, embedded_field f -> struct_of g = Some gs ->
  (forall v, import E W d o (GStruct [(f, g)]) = Ok (v, None) ->
     exists w, import E W d o (GStruct gs) = Ok (w, None) /\ same_members v w) /\
  (forall w, import E W d o (GStruct gs) = Ok (w, None) ->
     exists v, import E W d o (GStruct [(f, g)]) = Ok (v, None) /\ same_members v w).
Proof. exact embedded_struct. Qed.
Print Assumptions C65_embedded.

(** An embedded nil pointer: null, unless omitempty or a name without a capital
    ASCII letter in front hides it. *)
Theorem C65_embedded_nil : forall (E : Env) (W : World) (d : opt) o f g name opts,
  gf_anon f = true -> tag_parts (gf_tag f) name opts -> no_space_ends name -> field_key f name <> bs "-" -> nil_pointer g ->
  exists v, import E W d o (GStruct [(f, g)]) = Ok (v, None) /\ an_object v /\
  forall k x, member v k x <->
    (o_ignore_omitempty (combine_options d o) = true \/ (~ In (bs "omitempty") opts /\ letter_first (gf_name f))) /\
    k = field_key f name /\ x = VNull.
Proof. exact embedded_nil_field. Qed.
Print Assumptions C65_embedded_nil.

(** An embedded map: its entries become members, as encoding/json does not do. *)
Theorem C65_embedded_map : forall (E : Env) (W : World) (d : opt) o f f0 key opts m v,
  plain_field f0 key opts -> gf_anon f = true -> gf_exported f = true ->
  gf_name f = gf_name f0 -> gf_tag f = gf_tag f0 -> letter_first (gf_name f) ->
  m <> [] -> NoDup (map (fun e => key_text (fst e)) m) ->
  import E W d o (GStruct [(f, GMap (Some m))]) = Ok (v, None) ->
  exists w c, import E W d o (GStruct [(f0, GMap (Some m))]) = Ok (w, None) /\ member w key c /\ same_members v c.
Proof. exact embedded_map. Qed.
Print Assumptions C65_embedded_map.

(** ... even those of an unexported map, with what omitempty does to them. *)
Theorem C65_embedded_map_refuted : forall (E : Env) (W : World),
  differs E W (GStruct [(emb "M" "" false, GMap (Some [(KStr (bs "a"), GInt 1)]))])
    (TObj [(bs "M", TObj [(bs "a", TInt 1)])]) (obj1 "a" (new_int64 1)) /\
  differs E W (GStruct [(hid "m" "", GMap (Some [(KStr (bs "a"), GInt 1); (KStr (bs "b"), GInt 0)]))])
    (TObj []) (obj1 "a" (new_int64 1)).
Proof. exact embedded_maps. Qed.
Print Assumptions C65_embedded_map_refuted.

(** A map: the entries.  In a field the tag applies to every entry. *)
Theorem C65_map : forall (E : Env) (W : World) (d : opt) o m c,
  NoDup (map (fun e => key_text (fst e)) m) -> import E W d o (GMap (Some m)) = Ok (c, None) ->
  an_object c /\
  forall k x, member c k x <->
    exists kk g, In (kk, g) m /\ k = key_text kk /\ import E W d o g = Ok (x, None) /\ ~ typeless x.
Proof. exact map_import. Qed.
Print Assumptions C65_map.

Theorem C65_field_map : forall (E : Env) (W : World) (d : opt) o f key opts m v,
  plain_field f key opts -> m <> [] -> NoDup (map (fun e => key_text (fst e)) m) ->
  import E W d o (GStruct [(f, GMap (Some m))]) = Ok (v, None) ->
  exists c, an_object c /\ (forall k x, member v k x <-> k = key /\ x = c) /\
  forall k x, member c k x <->
    exists kk g w, In (kk, g) m /\ k = key_text kk /\ import E W d o (GStruct [(f, g)]) = Ok (w, None) /\ member w key x.
Proof. exact field_map. Qed.
Print Assumptions C65_field_map.

(** An array or slice: the elements.  In a field the tag without omitempty applies
    to every element; a nil *V remains one. *)
Theorem C65_list : forall (E : Env) (W : World) (d : opt) o l g c, g = GSlice (Some l) \/ g = GArray l ->
  (import E W d o g = Ok (c, None) <->
   exists xs, c = VArr xs /\ Forall2 (fun g x => import E W d o g = Ok (x, None)) l xs).
Proof. exact list_import. Qed.
Print Assumptions C65_list.

Theorem C65_field_list : forall (E : Env) (W : World) (d : opt) o f f' key opts opts' l g v,
  g = GSlice (Some l) /\ l <> [] \/ g = GArray l ->
  plain_field f key opts -> plain_field f' key opts' ->
  ~ In (bs "omitempty") opts' -> (In (bs "string") opts <-> In (bs "string") opts') ->
  import E W d o (GStruct [(f, g)]) = Ok (v, None) ->
  exists xs, (forall k x, member v k x <-> k = key /\ x = VArr xs) /\
  Forall2 (fun g x => exists w, import E W d o (GStruct [(f', g)]) = Ok (w, None) /\
    (member w key x \/ lost g /\ import E W d o g = Ok (x, None))) l xs.
Proof. exact field_list. Qed.
Print Assumptions C65_field_list.

(** Pointers and interfaces: what they lead to.  A V by itself: its text. *)
Theorem C65_pointers : forall (E : Env) (W : World) (d : opt) o g,
  ((forall v, g <> GVal v) -> import E W d o (GPtr (Some g)) = import E W d o g) /\
  import E W d o (GIface g) = import E W d o g /\
  (forall f key opts, plain_field f key opts ->
     ((forall v, g <> GVal v) -> import E W d o (GStruct [(f, GPtr (Some g))]) = import E W d o (GStruct [(f, g)])) /\
     import E W d o (GStruct [(f, GIface g)]) = import E W d o (GStruct [(f, g)])).
Proof.
  exact (fun E W d o g => conj (ptr_import E W d o g) (conj (iface_import E W d o g)
    (fun f key opts Hf => conj (field_ptr E W d o f key opts g Hf) (field_iface E W d o f key opts g Hf)))).
Qed.
Print Assumptions C65_pointers.

Theorem C65_value : forall (E : Env) (W : World) (d : opt) o f key opts v, plain_field f key opts -> v <> VNil ->
  import E W d o (GStruct [(f, GValue v)]) = import E W d o (GStruct [(f, GJson (MOut (marshal E W d [] v)))]) /\
  import E W d o (GStruct [(f, GPtr (Some (GVal v)))]) = import E W d o (GStruct [(f, GValue v)]).
Proof. exact field_value_text. Qed.
Print Assumptions C65_value.

(** Tags, and data that is empty or is not. *)
Example C65_instance_fields : plain_field (fld "A" "a,omitempty") (bs "a") [bs "omitempty"] /\
  plain_field (fld "A" ",string,omitempty") (bs "A") [bs "string"; bs "omitempty"] /\ plain_field (fld "A" "") (bs "A") [] /\
  void env0 world1 opt0 (GPtr (Some (GIface (GJson (MOut (Ok (bs " 0e5 ")))))) ) /\
  ~ void env0 world1 opt0 (GArray []) /\ ~ void env0 world1 opt0 (GStruct []) /\
  lost (GIface (GVal VNotExist)) /\ lost (GJson MNilIface) /\ ~ lost (GText MNilIface).
Proof. exact parts_instances. Qed.
(** The same struct with and without OptIgnoreOmitempty. *)
Example C65_instance_text :
  (let* (v, e) := import env0 world1 opt0 [] omitted in marshal env0 world1 opt0 [] v) = Ok (bs "{""b"":[""0"",""1""],""c"":{""y"":1},""d"":{}}") /\
  (let* (v, e) := import env0 world1 opt0 [OIgnoreOmitempty] omitted in marshal env0 world1 opt0 [] v)
    = Ok (bs "{""a"":"""",""b"":[""0"",""1""],""c"":{""x"":0,""y"":1},""d"":{},""e"":null,""f"":{}}").
Proof. split; vm_compute; reflexivity. Qed.
