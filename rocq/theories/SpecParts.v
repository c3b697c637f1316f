(** Specification of Import part by part: what becomes of a field, an embedded
    field, an entry of a map, an element, a pointer.  The statements compare calls
    of Import; nothing here depends on the model of Import. *)
From Verif Require Import Base Float64 Value Unmarshal Opt Marshal GoValue SpecImport.

(** [member v k x]: v is an object with the value x under the name k. *)
Definition member (v : V) (k : bytes) (x : V) : Prop :=
  exists i kvs lo id, v = VObj i kvs lo /\ In (k, (id, x)) kvs.
Definition an_object (v : V) : Prop := exists i kvs lo, v = VObj i kvs lo /\ NoDup (map fst kvs).
Definition same_members (v w : V) : Prop := an_object v /\ an_object w /\ forall k x, member v k x <-> member w k x.

(** A field that is exported and not embedded: its name in the document, and the
    options in its tag. *)
Definition plain_field (f : gfield) (key : bytes) (opts : list bytes) : Prop :=
  gf_exported f = true /\ gf_anon f = false /\
  exists name, tag_parts (gf_tag f) name opts /\ no_space_ends name /\ key = field_key f name /\ key <> bs "-".

(** An embedded field that is not marked with the name "-". *)
Definition embedded_field (f : gfield) : Prop :=
  gf_anon f = true /\ exists name opts, tag_parts (gf_tag f) name opts /\ no_space_ends name /\ field_key f name <> bs "-".

(** A *V that is nil or of type NotExist; no member can have such a value. *)
Definition typeless (v : V) : Prop := v = VNil \/ v = VNotExist.
Definition nil_method (m : gmethod) : Prop := m = MNilPtr \/ m = MNilIface.

(** A document that counts as empty. *)
Definition empty_doc (v : V) : Prop :=
  match v with
  | VStr s => s = []
  | VNum n _ => exists s, n_f64 n = S754_zero s
  | VArr l => l = []
  | VObj _ kvs _ => kvs = []
  | VBool b => b = false
  | VNull => True
  | _ => False
  end.

Section Parts.
Variable E : Env.
Variable W : World.
Variable d : opt.

(** Data of which no member is made, with or without omitempty. *)
Inductive lost : gov -> Prop :=
| lost_value v : typeless v \/ v = VUnknown -> lost (GVal v)
| lost_value_nil : lost (GValue VNil)
| lost_json m : nil_method m -> lost (GJson m)
| lost_text : lost (GText MNilPtr)
| lost_ptr_value : lost (GPtr (Some (GVal VNil)))
| lost_ptr x : (forall v, x <> GVal v) -> lost x -> lost (GPtr (Some x))
| lost_iface x : lost x -> lost (GIface x).

(** The text is that of an empty document. *)
Definition empty_text (b : bytes) : Prop := exists v, unmarshal E b = Ok (v, None) /\ empty_doc v.

(** Data that omitempty drops: false, 0, nil, what has length zero, except arrays
    and structs; methods that return such JSON; and pointers and interfaces that
    lead to such data. *)
Inductive void : gov -> Prop :=
| void_lost x : lost x -> void x
| void_nil : void GInvalid
| void_bool : void (GBool false)
| void_int : void (GInt 0)
| void_uint : void (GUint 0)
| void_float64 s : void (GFloat64 (S754_zero s))
| void_float32 s : void (GFloat32 (S754_zero s))
| void_slice l : l = None \/ l = Some [] -> void (GSlice l)
| void_bytes b : b = None \/ b = Some [] -> void (GBytes b)
| void_str : void (GStr [])
| void_map m : m = None \/ m = Some [] -> void (GMap m)
| void_ptr_nil : void (GPtr None)
| void_json b : empty_text b -> void (GJson (MOut (Ok b)))
| void_text : void (GText (MOut (Ok [])))
| void_value v b : v <> VNil -> marshal E W d [] v = Ok b -> empty_text b -> void (GValue v)
| void_value_ptr v b : v <> VNil -> marshal E W d [] v = Ok b -> empty_text b -> void (GPtr (Some (GVal v)))
| void_ptr x : (forall v, x <> GVal v) -> void x -> void (GPtr (Some x))
| void_iface x : void x -> void (GIface x).
End Parts.

(** The scalars to which the option "string" applies. *)
Definition go_scalar (g : gov) : Prop :=
  match g with GBool _ | GInt _ | GUint _ | GFloat64 _ | GFloat32 _ => True | _ => False end.

(** A map that is not empty, or a pointer or interface that leads to one. *)
Inductive leads_to_map : gov -> Prop :=
| leads_map m : m <> [] -> leads_to_map (GMap (Some m))
| leads_ptr x : leads_to_map x -> leads_to_map (GPtr (Some x))
| leads_iface x : leads_to_map x -> leads_to_map (GIface x).

(** The text of a number or boolean: what Marshal returns; nothing if it refuses
    the number. *)
Definition text_of (E : Env) (W : World) (d : opt) (v : V) (s : bytes) : Prop :=
  marshal E W d [] v = Ok s \/ s = [] /\ exists e, marshal E W d [] v = Err e.

(** Data on which the option "string" has no effect. *)
Definition not_quoted (g : gov) : Prop :=
  match g with
  | GStr _ | GBytes _ | GStruct _ | GVal _ | GValue _ | GJson _ | GText _ | GInvalid | GPtr None | GMap None => True
  | _ => False
  end.

(** A nil pointer, of whatever type. *)
Definition nil_pointer (g : gov) : Prop :=
  g = GPtr None \/ g = GVal VNil \/ g = GJson MNilPtr \/ g = GText MNilPtr.
