(** Specification of Export: what json.Unmarshal accepts and stores, and the Go
    data that shows a value. *)
From Verif Require Import Base Float64 Value GoValue SpecJson SpecText SpecOpts SpecFloatText SpecImport.

(** *** json.Unmarshal *)

(** How deep arrays and objects are nested. *)
Fixpoint nesting (j : jv) : Z :=
  match j with
  | JArr l => 1 + fold_right Z.max 0 (map nesting l)
  | JObj l => 1 + fold_right Z.max 0 (map (fun m => nesting (snd m)) l)
  | _ => 0
  end.

(** Texts that are accepted (of those in UTF-8): JSON, not nested too deep. *)
Definition std_text (b : bytes) (j : jv) : Prop := json_doc b j /\ nesting j <= 10000.

(** A literal that strconv.ParseFloat does not refuse. *)
Definition finite_lit (lit : bytes) : Prop :=
  forall neg ip fd e i, num_lit lit neg ip fd e i -> finite64 (lit_f64 neg ip fd e).

(** [ms']: for every name of [ms] the last member of this name, in any order (a
    Go map). *)
Definition last_members (ms ms' : list (bytes * jv)) : Prop :=
  NoDup (map fst ms') /\
  forall m, In m ms' <-> exists a b, ms = a ++ m :: b /\ ~ In (fst m) (map fst b).

(** "bool, for JSON booleans; float64, for JSON numbers; string, for JSON strings;
    []interface{}, for JSON arrays; map[string]interface{}, for JSON objects; nil
    for JSON null" *)
Definition map_of (es : list (bytes * gov)) : gov :=
  GMap (Some (map (fun e => (KStr (fst e), GIface (snd e))) es)).
Definition slice_of (gs : list gov) : gov := GSlice (Some (map GIface gs)).

Inductive any_data : jv -> gov -> Prop :=
| AD_null : any_data JNull GInvalid
| AD_bool b : any_data (JBool b) (GBool b)
| AD_num lit neg ip fd e i : num_lit lit neg ip fd e i -> any_data (JNum lit) (GFloat64 (lit_f64 neg ip fd e))
| AD_str s : any_data (JStr s) (GStr s)
| AD_arr l gs : Forall2 any_data l gs -> any_data (JArr l) (slice_of gs)
| AD_obj ms ms' es :
    last_members ms ms' ->
    Forall2 (fun m e => fst e = fst m /\ any_data (snd m) (snd e)) ms' es ->
    any_data (JObj ms) (map_of es).

(** *** Values *)

Fixpoint levels (v : V) : Z :=
  match v with
  | VArr l => 1 + fold_right Z.max 0 (map levels l)
  | VObj _ kvs _ => 1 + fold_right Z.max 0 (map (fun x => levels (snd (snd x))) kvs)
  | _ => 0
  end.

(** The values that can be exported. *)
Definition exportable (v : V) : Prop :=
  all_text (fun s => ~ In 11 s) (fun _ src => rfc_lit src /\ finite_lit src) v /\ levels v <= 10000.

(** [exported v g]: the Go data [g] shows [v].  Numbers are rounded to float64,
    strings and names repaired; if that makes names equal, one of the members is
    there. *)
Inductive exported : V -> gov -> Prop :=
| EX_null : exported VNull GInvalid
| EX_bool b : exported (VBool b) (GBool b)
| EX_num n src neg ip fd e i : num_lit src neg ip fd e i -> exported (VNum n src) (GFloat64 (lit_f64 neg ip fd e))
| EX_str s s' : fixed s s' -> exported (VStr s) (GStr s')
| EX_arr l gs : Forall2 exported l gs -> exported (VArr l) (slice_of gs)
| EX_obj i kvs lo kvs' es :
    (forall x, In x kvs' -> In x kvs) ->
    (forall x, In x kvs -> exists e, In e es /\ fixed (fst x) (fst e)) ->
    NoDup (map fst es) ->
    Forall2 (fun x e => fixed (fst x) (fst e) /\ exported (snd (snd x)) (snd e)) kvs' es ->
    exported (VObj i kvs lo) (map_of es).

(** [rounded E v v']: [v'] is [v] with strings and names repaired and every
    number replaced by the float64 nearest to its text, written as FormatFloat
    does it. *)
Inductive rounded (E : Env) : V -> V -> Prop :=
| RD_null : rounded E VNull VNull
| RD_bool b : rounded E (VBool b) (VBool b)
| RD_num n src neg ip fd e i n' src' :
    num_lit src neg ip fd e i -> n_f64 n' = lit_f64 neg ip fd e -> float_text E (n_f64 n') 64 src' ->
    rounded E (VNum n src) (VNum n' src')
| RD_str s s' : fixed s s' -> rounded E (VStr s) (VStr s')
| RD_arr l l' : Forall2 (rounded E) l l' -> rounded E (VArr l) (VArr l')
| RD_obj i kvs lo kvs1 i' kvs' lo' :
    Permutation kvs kvs1 ->
    Forall2 (fun x y => fixed (fst x) (fst y) /\ rounded E (snd (snd x)) (snd (snd y))) kvs1 kvs' ->
    rounded E (VObj i kvs lo) (VObj i' kvs' lo').

(** *** Go data made of interface{} *)

(** The data that json.Unmarshal stores into an interface{}: floats satisfy [PF],
    strings and names [PS]. *)
Inductive any_shape (PF : spec_float -> Prop) (PS : bytes -> Prop) : gov -> Prop :=
| AS_nil : any_shape PF PS GInvalid
| AS_bool b : any_shape PF PS (GBool b)
| AS_float f : PF f -> any_shape PF PS (GFloat64 f)
| AS_str s : PS s -> any_shape PF PS (GStr s)
| AS_slice gs : Forall (any_shape PF PS) gs -> any_shape PF PS (slice_of gs)
| AS_map es : NoDup (map fst es) -> Forall (fun e => PS (fst e) /\ any_shape PF PS (snd e)) es -> any_shape PF PS (map_of es).

(** Finite numbers, and strings in UTF-8 without U+000B. *)
Definition plain_float (f : spec_float) : Prop := exists s M q, float64 f s M q.
Definition plain_string (s : bytes) : Prop := well_formed s /\ ~ In 11 s.
Definition plain_data : gov -> Prop := any_shape plain_float plain_string.

Fixpoint go_levels (g : gov) : Z :=
  match g with
  | GIface g => go_levels g
  | GSlice (Some l) => 1 + fold_right Z.max 0 (map go_levels l)
  | GMap (Some l) => 1 + fold_right Z.max 0 (map (fun e => go_levels (snd e)) l)
  | _ => 0
  end.

(** The same data; maps are listed in any order. *)
Inductive same_data : gov -> gov -> Prop :=
| SD_nil : same_data GInvalid GInvalid
| SD_bool b : same_data (GBool b) (GBool b)
| SD_float f : same_data (GFloat64 f) (GFloat64 f)
| SD_str s : same_data (GStr s) (GStr s)
| SD_slice gs gs' : Forall2 same_data gs gs' -> same_data (slice_of gs) (slice_of gs')
| SD_map es es1 es' : Permutation es es1 ->
    Forall2 (fun e e' => fst e = fst e' /\ same_data (snd e) (snd e')) es1 es' -> same_data (map_of es) (map_of es').
