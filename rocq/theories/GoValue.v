(** Go data as package reflect shows it to Import. *)
From Verif Require Import Base Float64 Value.

(** Keys of a map, by reflect.Kind of the key type. *)
Inductive gkey :=
| KStr (s : bytes)
| KInt (z : Z)
| KUint (z : Z).

(** A field of a struct type: reflect.StructField, whether the name is exported
    (IsExported), and whether the type of the field is a struct or a pointer to
    a struct, in both cases without methods for marshalling (Import does not ask
    for it, but encoding/json does).  [gf_tag] is Tag.Get("json"). *)
Record gfield := GField {
  gf_name : bytes;
  gf_anon : bool;
  gf_exported : bool;
  gf_struct : bool;
  gf_tag : bytes;
}.

(** A method MarshalJSON or MarshalText of the user: the receiver is a nil
    pointer or a nil interface value (the method is not called then), or what
    the call returns (also an error or a panic). *)
Inductive gmethod :=
| MNilPtr
| MNilIface
| MOut (r : res bytes).

(** Go values.  Of the static type only what Import asks for is kept.  A map is
    listed in the order in which MapKeys delivers it.  Types with the methods
    MarshalJSON or MarshalText, also by way of a pointer receiver or of
    embedding, are [GJson] and [GText] ([GJson] if they have both); the elements
    of a pointer or interface are listed as what they are. *)
Inductive gov :=
| GInvalid                                     (* the nil interface *)
| GBool (b : bool)
| GInt (z : Z)                                 (* int, int8, ..., int64 *)
| GUint (z : Z)                                (* uint, ..., uint64, uintptr *)
| GFloat64 (f : spec_float)
| GFloat32 (f : spec_float)
| GArray (l : list gov)
| GSlice (l : option (list gov))               (* None: nil *)
| GBytes (b : option bytes)                    (* exactly the type []byte *)
| GStr (s : bytes)
| GMap (m : option (list (gkey * gov)))
| GMapOther                                    (* a map with keys of another kind *)
| GPtr (p : option gov)
| GIface (g : gov)                             (* a variable of interface type: what it holds *)
| GStruct (fs : list (gfield * gov))
| GVal (v : V)                                 (* *jsonvalue.V *)
| GValue (v : V)                               (* jsonvalue.V, not a pointer *)
| GJson (m : gmethod)
| GText (m : gmethod)
| GOther.                                      (* chan, func, complex, unsafe.Pointer *)

(** Induction with the nested lists. *)
Lemma gov_ind' (P : gov -> Prop) :
  P GInvalid -> (forall b, P (GBool b)) -> (forall z, P (GInt z)) -> (forall z, P (GUint z)) ->
  (forall f, P (GFloat64 f)) -> (forall f, P (GFloat32 f)) ->
  (forall l, Forall P l -> P (GArray l)) ->
  P (GSlice None) -> (forall l, Forall P l -> P (GSlice (Some l))) ->
  (forall b, P (GBytes b)) -> (forall s, P (GStr s)) ->
  P (GMap None) -> (forall m, Forall (fun e => P (snd e)) m -> P (GMap (Some m))) -> P GMapOther ->
  P (GPtr None) -> (forall g, P g -> P (GPtr (Some g))) -> (forall g, P g -> P (GIface g)) ->
  (forall fs, Forall (fun e => P (snd e)) fs -> P (GStruct fs)) ->
  (forall v, P (GVal v)) -> (forall v, P (GValue v)) -> (forall m, P (GJson m)) -> (forall m, P (GText m)) ->
  P GOther -> forall g, P g.
Proof.
  intros H1 H2 H3 H4 H5 H6 H7 H8 H9 H10 H11 H12 H13 H14 H15 H16 H17 H18 H19 H20 H21 H22 H23.
  fix IH 1. intros [ |b|z|z|f|f|l|[l|]|b|s|[m|]| |[g|]|g|fs|v|v|m|m| ].
  - exact H1.
  - apply H2.
  - apply H3.
  - apply H4.
  - apply H5.
  - apply H6.
  - apply H7. induction l as [|x l IHl]; constructor; [apply IH|exact IHl].
  - apply H9. induction l as [|x l IHl]; constructor; [apply IH|exact IHl].
  - exact H8.
  - apply H10.
  - apply H11.
  - apply H13. induction m as [|[k x] m IHm]; constructor; [apply IH|exact IHm].
  - exact H12.
  - exact H14.
  - apply H16, IH.
  - exact H15.
  - apply H17, IH.
  - apply H18. induction fs as [|[f x] fs IHf]; constructor; [apply IH|exact IHf].
  - apply H19.
  - apply H20.
  - apply H21.
  - apply H22.
  - exact H23.
Qed.
