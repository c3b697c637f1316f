(** OptIgnoreOmitempty (C80): the same data with other tags. *)
From Verif Require Import Base GoValue SpecImport.

(** [t] takes the option omitempty out of tags and leaves the rest of the options
    and the name. *)
Definition takes_out (t : bytes -> bytes) : Prop :=
  forall tag name opts, tag_parts tag name opts ->
    tag_parts (t tag) name (filter (fun p => if list_eq_dec Z.eq_dec p (bs "omitempty") then false else true) opts).

(** The same data, every tag changed by [t]. *)
Definition retag_field (t : bytes -> bytes) (f : gfield) : gfield :=
  GField (gf_name f) (gf_anon f) (gf_exported f) (gf_struct f) (t (gf_tag f)).
Fixpoint retag (t : bytes -> bytes) (g : gov) : gov :=
  match g with
  | GArray l => GArray (map (retag t) l)
  | GSlice (Some l) => GSlice (Some (map (retag t) l))
  | GMap (Some m) => GMap (Some (map (fun e : gkey * gov => (fst e, retag t (snd e))) m))
  | GPtr (Some x) => GPtr (Some (retag t x))
  | GIface x => GIface (retag t x)
  | GStruct fs => GStruct (map (fun e : gfield * gov => (retag_field t (fst e), retag t (snd e))) fs)
  | _ => g
  end.

(** Every embedded field has an exported name or holds a struct. *)
Fixpoint open_embeds (g : gov) : Prop :=
  match g with
  | GArray l | GSlice (Some l) =>
    (fix go (l : list gov) : Prop := match l with [] => True | x :: r => open_embeds x /\ go r end) l
  | GMap (Some m) =>
    (fix go (m : list (gkey * gov)) : Prop := match m with [] => True | (_, x) :: r => open_embeds x /\ go r end) m
  | GPtr (Some x) | GIface x => open_embeds x
  | GStruct fs =>
    (fix go (fs : list (gfield * gov)) : Prop :=
       match fs with
       | [] => True
       | (f, x) :: r => (gf_anon f = true -> letter_first (gf_name f) \/ struct_of x <> None) /\ open_embeds x /\ go r
       end) fs
  | _ => True
  end.
