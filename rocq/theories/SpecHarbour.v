(** Go data that Import turns into a document with a nil inside. *)
From Verif Require Import Base Float64 Value GoValue SpecImport SpecFault SpecParts.

(** Data that Import turns into the nil *V: a nil *V, a nil value of a type with
    MarshalJSON, a nil pointer with MarshalText, or a way to one of these. *)
Inductive nilled : gov -> Prop :=
| nilled_value : nilled (GVal VNil)
| nilled_value_self : nilled (GValue VNil)
| nilled_json m : nil_method m -> nilled (GJson m)
| nilled_text : nilled (GText MNilPtr)
| nilled_ptr x : nilled x -> nilled (GPtr (Some x))
| nilled_iface x : nilled x -> nilled (GIface x).

(** Such data as an element of a slice or array, anywhere in what Import looks
    at. *)
Inductive harbours : gov -> Prop :=
| harbours_element l g x : g = GSlice (Some l) \/ g = GArray l -> In x l -> nilled x \/ harbours x -> harbours g
| harbours_entry m k x : In (k, x) m -> harbours x -> harbours (GMap (Some m))
| harbours_ptr x : harbours x -> harbours (GPtr (Some x))
| harbours_iface x : harbours x -> harbours (GIface x)
| harbours_field fs f x : In (f, x) fs -> field_seen f -> harbours x -> harbours (GStruct fs).

(** Embedded fields hold structs, here and inside. *)
Fixpoint embeds_structs (g : gov) : Prop :=
  match g with
  | GArray l | GSlice (Some l) =>
    (fix go (l : list gov) : Prop := match l with [] => True | x :: r => embeds_structs x /\ go r end) l
  | GMap (Some m) =>
    (fix go (m : list (gkey * gov)) : Prop := match m with [] => True | (_, x) :: r => embeds_structs x /\ go r end) m
  | GPtr (Some x) | GIface x => embeds_structs x
  | GStruct fs =>
    (fix go (fs : list (gfield * gov)) : Prop :=
       match fs with [] => True | (f, x) :: r => (gf_anon f = true -> struct_of x <> None) /\ embeds_structs x /\ go r end) fs
  | _ => True
  end.

(** The names of fields that are not embedded: [None] for those that are not
    looked at. *)
Definition field_name (f : gfield) (k : option bytes) : Prop :=
  match k with
  | Some k => exists opts, plain_field f k opts
  | None => gf_anon f = false /\ (gf_exported f = false \/ exists opts, tag_parts (gf_tag f) (bs "-") opts)
  end.
Fixpoint names (l : list (option bytes)) : list bytes :=
  match l with [] => [] | Some k :: r => k :: names r | None :: r => names r end.

(** No embedded fields, and no name twice in a struct or map. *)
Fixpoint distinct (g : gov) : Prop :=
  match g with
  | GArray l | GSlice (Some l) =>
    (fix go (l : list gov) : Prop := match l with [] => True | x :: r => distinct x /\ go r end) l
  | GMap (Some m) =>
    NoDup (map (fun e => key_text (fst e)) m) /\
    (fix go (m : list (gkey * gov)) : Prop := match m with [] => True | (_, x) :: r => distinct x /\ go r end) m
  | GPtr (Some x) | GIface x => distinct x
  | GStruct fs =>
    (exists ks, Forall2 (fun e => field_name (fst e)) fs ks /\ NoDup (names ks)) /\
    (fix go (fs : list (gfield * gov)) : Prop := match fs with [] => True | (_, x) :: r => distinct x /\ go r end) fs
  | _ => True
  end.
