(** Specification of fields that compete for a name: the rule of Go for promoted
    fields, as encoding/json applies it to the names in the document. *)
From Verif Require Import Base Float64 Value Unmarshal Opt Marshal GoValue Import SpecImport SpecParts.

(** A field with the name [c_key] in the document, [c_depth] embedded structs deep. *)
Record cand := mkCand { c_depth : nat; c_tagged : bool; c_key : bytes; c_field : gfield; c_data : gov }.

(** [promoted n fs cs]: the fields of a struct and of the structs embedded in it, in
    the order of declaration.  Left out: embedded fields that are no structs, nil
    pointers (of which the data does not show the fields), embedded structs with a
    name in the tag. *)
Inductive promoted : nat -> list (gfield * gov) -> list cand -> Prop :=
| pr_nil n : promoted n [] []
| pr_unseen n f g fs cs :
    gf_anon f = false -> gf_exported f = false \/ gf_tag f = bs "-" -> promoted n fs cs -> promoted n ((f, g) :: fs) cs
| pr_field n f g fs cs name opts :
    gf_exported f = true -> gf_anon f = false -> tag_parts (gf_tag f) name opts -> Forall name_char name -> no_space_ends name ->
    field_key f name <> bs "-" -> promoted n fs cs ->
    promoted n ((f, g) :: fs) (mkCand n (match name with [] => false | _ => true end) (field_key f name) f g :: cs)
| pr_embedded n f g gs fs ds cs opts :
    gf_anon f = true -> gf_struct f = true -> gf_name f <> bs "-" -> tag_parts (gf_tag f) [] opts -> struct_of g = Some gs ->
    promoted (S n) gs ds -> promoted n fs cs -> promoted n ((f, g) :: fs) (ds ++ cs).

(** [c] is ahead of [c']: less deep, or as deep and alone to have its name from a tag. *)
Definition ahead (c c' : cand) : Prop :=
  (c_depth c < c_depth c')%nat \/ c_depth c = c_depth c' /\ c_tagged c = true /\ c_tagged c' = false.

(** [c], which stands between [pre] and [post], is ahead of all others with its name. *)
Definition dominant_at (pre : list cand) (c : cand) (post : list cand) : Prop :=
  forall c', In c' (pre ++ post) -> c_key c' = c_key c -> ahead c c'.
(** The field that encoding/json writes under the name [k]; there may be none. *)
Definition dominant (cs : list cand) (k : bytes) (c : cand) : Prop :=
  exists pre post, cs = pre ++ c :: post /\ c_key c = k /\ dominant_at pre c post.

(** For every name the last field with it is the dominant one. *)
Definition last_dominant (cs : list cand) : Prop :=
  forall pre c post, cs = pre ++ c :: post -> (forall c', In c' post -> c_key c' <> c_key c) -> dominant_at pre c post.

Section Compete.
Variables (E : Env) (W : World) (d : opt) (o : list option_).

(** What the field gives when it stands alone. *)
Definition gives (c : cand) (x : V) : Prop :=
  exists w, import E W d o (GStruct [(c_field c, c_data c)]) = Ok (w, None) /\ member w (c_key c) x.

(** The value under [k] is that of the last field with this name that gives one. *)
Definition last_given (cs : list cand) (k : bytes) (x : V) : Prop :=
  exists pre c post, cs = pre ++ c :: post /\ c_key c = k /\ gives c x /\
    forall c', In c' post -> c_key c' = k -> forall y, ~ gives c' y.

(** The members are those of the dominant fields. *)
Definition by_dominance (cs : list cand) (v : V) : Prop :=
  forall k x, member v k x <-> exists c, dominant cs k c /\ gives c x.

(** Any two fields with one name can be told apart by their values. *)
Definition told_apart (cs : list cand) : Prop :=
  forall pre c mid c' post x x', cs = pre ++ c :: mid ++ c' :: post -> c_key c = c_key c' -> gives c x -> gives c' x' -> x <> x'.
End Compete.
