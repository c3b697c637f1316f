(** Specification of when Import returns an error. *)
From Verif Require Import Base Float64 Value Unmarshal Opt Marshal GoValue SpecImport.

(** A field of the JSON object: exported or embedded, and not marked with the
    name "-". *)
Definition field_seen (f : gfield) : Prop :=
  (gf_exported f = true \/ gf_anon f = true) /\ forall opts, ~ tag_parts (gf_tag f) (bs "-") opts.

(** Unmarshal refuses the text. *)
Definition refused (E : Env) (b : bytes) : Prop := forall v, unmarshal E b <> Ok (v, None).

(** Data that has no JSON: a channel, function, complex number or unsafe pointer, a
    map with keys other than strings and integers, a method that returns an error
    or no JSON, or one of these inside. *)
Inductive faulty (E : Env) (W : World) (d : opt) : gov -> Prop :=
| faulty_other : faulty E W d GOther
| faulty_map_key : faulty E W d GMapOther
| faulty_json e : faulty E W d (GJson (MOut (Err e)))
| faulty_no_json b : refused E b -> faulty E W d (GJson (MOut (Ok b)))
| faulty_text e : faulty E W d (GText (MOut (Err e)))
| faulty_value v : v <> VNil -> faulty_v E W d v -> faulty E W d (GValue v)
| faulty_value_ptr v : v <> VNil -> faulty_v E W d v -> faulty E W d (GPtr (Some (GVal v)))
| faulty_array l x : In x l -> faulty E W d x -> faulty E W d (GArray l)
| faulty_slice l x : In x l -> faulty E W d x -> faulty E W d (GSlice (Some l))
| faulty_entry m k x : In (k, x) m -> faulty E W d x -> faulty E W d (GMap (Some m))
| faulty_ptr x : faulty E W d x -> faulty E W d (GPtr (Some x))
| faulty_iface x : faulty E W d x -> faulty E W d (GIface x)
| faulty_field fs f x : In (f, x) fs -> field_seen f -> faulty E W d x -> faulty E W d (GStruct fs)
(** a V (not a pointer to it), which goes by way of its text *)
with faulty_v (E : Env) (W : World) (d : opt) : V -> Prop :=
| faulty_marshal v e : marshal E W d [] v = Err e -> faulty_v E W d v
| faulty_output v b : marshal E W d [] v = Ok b -> refused E b -> faulty_v E W d v.

(** Names of fields are Go identifiers; names in tags have no white space at the
    ends. *)
Fixpoint tidy (g : gov) : Prop :=
  match g with
  | GArray l | GSlice (Some l) =>
    (fix go (l : list gov) : Prop := match l with [] => True | x :: r => tidy x /\ go r end) l
  | GMap (Some m) =>
    (fix go (m : list (gkey * gov)) : Prop := match m with [] => True | (_, x) :: r => tidy x /\ go r end) m
  | GPtr (Some x) | GIface x => tidy x
  | GStruct fs =>
    (fix go (fs : list (gfield * gov)) : Prop :=
       match fs with
       | [] => True
       | (f, x) :: r => (gf_name f <> bs "-" /\ forall name opts, tag_parts (gf_tag f) name opts -> no_space_ends name) /\
                        tidy x /\ go r
       end) fs
  | _ => True
  end.
