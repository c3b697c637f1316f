(** Specification of histories: the documents one can arrive at by calls of the
    API, and the order in which members were last set. *)
From Verif Require Import Base Float64 Value Scan Unmarshal Opt Marshal Access Path Edit Iter GoValue Import
  SpecJson SpecText SpecLax SpecOrder SpecPath.

(** No object inside has an index for caseless access; the names in an object
    differ, and so do the numbers that keep the order of setting, which are at
    most [n].  Values made by the constructors are such. *)
Fixpoint fresh (n : nat) (v : V) : Prop :=
  match v with
  | VArr l => (fix go (l : list V) : Prop :=
                 match l with [] => True | x :: r => fresh n x /\ go r end) l
  | VObj i kvs lo => lo = None /\ NoDup (map fst kvs) /\ NoDup (map (fun e => fst (snd e)) kvs) /\
                 0 <= i <= Z.of_nat n /\ Forall (fun e => fst (snd e) <= i) kvs /\
                 (fix go (l : list (bytes * (Z * V))) : Prop :=
                    match l with [] => True | (_, (_, x)) :: r => fresh n x /\ go r end) kvs
  | _ => True
  end.

(** The *V that Go data contains. *)
Inductive contains_value : gov -> V -> Prop :=
| cv_val v : contains_value (GVal v) v
| cv_array l g v : In g l -> contains_value g v -> contains_value (GArray l) v
| cv_slice l g v : In g l -> contains_value g v -> contains_value (GSlice (Some l)) v
| cv_map m k g v : In (k, g) m -> contains_value g v -> contains_value (GMap (Some m)) v
| cv_ptr g v : contains_value g v -> contains_value (GPtr (Some g)) v
| cv_iface g v : contains_value g v -> contains_value (GIface g) v
| cv_struct fs f g v : In (f, g) fs -> contains_value g v -> contains_value (GStruct fs) v.

(** The texts that methods MarshalJSON in the data return: those of the user, and
    that of V. *)
Inductive contains_text (E : Env) (W : World) (d : opt) : gov -> bytes -> Prop :=
| ct_json b : contains_text E W d (GJson (MOut (Ok b))) b
| ct_value v b : marshal E W d [] v = Ok b -> contains_text E W d (GValue v) b
| ct_pointer v b : marshal E W d [] v = Ok b -> contains_text E W d (GPtr (Some (GVal v))) b
| ct_array l g v : In g l -> contains_text E W d g v -> contains_text E W d (GArray l) v
| ct_slice l g v : In g l -> contains_text E W d g v -> contains_text E W d (GSlice (Some l)) v
| ct_map m k g v : In (k, g) m -> contains_text E W d g v -> contains_text E W d (GMap (Some m)) v
| ct_ptr g v : contains_text E W d g v -> contains_text E W d (GPtr (Some g)) v
| ct_iface g v : contains_text E W d g v -> contains_text E W d (GIface g) v
| ct_struct fs f g v : In (f, g) fs -> contains_text E W d g v -> contains_text E W d (GStruct fs) v.

(** How many members Import sets at most in one object. *)
Definition text_size (E : Env) (W : World) (d : opt) (v : V) : nat :=
  match marshal E W d [] v with Ok b => List.length b | _ => 0 end.
Fixpoint data_size (E : Env) (W : World) (d : opt) (g : gov) : nat :=
  match g with
  | GArray l | GSlice (Some l) => fold_right (fun x n => S (data_size E W d x + n)) 0%nat l
  | GMap (Some m) => fold_right (fun e n => S (data_size E W d (snd e) + n)) 0%nat m
  | GStruct fs => fold_right (fun e n => S (data_size E W d (snd e) + n)) 0%nat fs
  | GPtr (Some x) => (data_size E W d x + match x with GVal v => text_size E W d v | _ => 0 end)%nat
  | GIface x => data_size E W d x
  | GVal (VObj _ kvs _) => List.length kvs
  | GValue v => text_size E W d v
  | GJson (MOut (Ok b)) => List.length b
  | _ => 0%nat
  end.

(** [history E n v]: the document [v] results from calls of Get, Set, Insert,
    Append, Delete, SortArray, UnmarshalJSON and Import, successful or not,
    caseless or not, beginning with parsed documents and fresh values; what is
    put in may itself have a history, and calls may be made on what is inside
    ([h_inside]).  No object was set to more than [n] times. *)
Inductive history (E : Env) : nat -> V -> Prop :=
| h_fresh n v : fresh n v -> history E n v
| h_parsed b v : Forall is_byte b -> unmarshal E b = Ok (v, None) -> history E (List.length b) v
| h_get n W cl v p o : history E n v -> history E n (fst (get E W cl v p o))
| h_found n W cl v p o v' c : history E n v -> get E W cl v p o = (v', Ok c) -> history E n c
| h_set n v m x p o : history E n v -> history E m (fst x) -> history E (S (n + m)) (fst (set_at E v x p o))
| h_before n W v m x p o : history E n v -> history E m (fst x) -> history E (n + m) (fst (insert_before E W v x p o))
| h_after n W v m x p o : history E n v -> history E m (fst x) -> history E (n + m) (fst (insert_after E W v x p o))
| h_append n W front v m x ps : history E n v -> history E m (fst x) -> history E (S (n + m)) (fst (append_at E W front v x ps))
| h_delete n W cl v p o : history E n v -> history E n (fst (delete_at E W cl v p o))
| h_sort n W v less v' : history E n v -> sort_array W v less = Ok v' -> history E n v'
| h_json n v b : history E n v -> Forall is_byte b -> history E (n + List.length b) (fst (unmarshal_json E v b))
(* Import, which copies the *V in the data *)
| h_import n W d opts g v e : (forall x, contains_value g x -> history E n x) ->
    (forall b, contains_text E W d g b -> Forall is_byte b) ->
    import E W d opts g = Ok (v, e) -> history E (n + data_size E W d g) v
(* a value found by Get is replaced by what it has become *)
| h_inside n m W cl v p o v' hs c : history E n v -> locate E W cl v p o = (v', Ok hs) ->
    history E m c -> history E (n + m) (put_at v' hs c).

(** [k'] is the key [k] up to letter case. *)
Definition same_letters (E : Env) (k k' : bytes) : Prop := to_lower E k = to_lower E k'.

(** The names that caseless access to [k] may use: [k] itself if the object has
    it, otherwise any that differs by letter case only. *)
Definition caseless_match (E : Env) (k : bytes) (kvs : list (bytes * (Z * V))) (k' : bytes) : Prop :=
  In k' (map fst kvs) /\ same_letters E k k' /\ (In k (map fst kvs) -> k' = k).

(** The same result, up to the index kept for caseless access. *)
Definition same_view (r r' : res V) : Prop :=
  match r, r' with
  | Ok c, Ok c' => forget c = forget c'
  | _, _ => r = r'
  end.

(** *** The order in which the names of an object were last set *)
Definition without (k : bytes) (ks : list bytes) : list bytes := remove (list_eq_dec Z.eq_dec) k ks.

(** [set_history E n v ks]: the object [v] results from calls of the API, in
    which [n] times a member of it was set; its names, in the order in which
    they were last set, are [ks]. *)
Inductive set_history (E : Env) : nat -> V -> list bytes -> Prop :=
| sh_new : set_history E 0 new_object []
| sh_parsed b ms v : Forall is_byte b -> unmarshal E b = Ok (v, None) -> lax_doc b (JObj ms) ->
    set_history E (List.length ms) v (map fst (last_wins ms))
| sh_get n v ks W cl p o : set_history E n v ks -> set_history E n (fst (get E W cl v p o)) ks
(* a member is set, or made because the path goes through it *)
| sh_set n v ks x k o v' c : set_history E n v ks -> Forall plain o ->
    set_at E v x (PStr k) o = (v', Ok c) -> (o = [] \/ ~ In k ks) ->
    set_history E (S n) v' (without k ks ++ [k])
(* something inside a member is set *)
| sh_set_inside n v ks x k o v' c : set_history E n v ks -> Forall plain o ->
    set_at E v x (PStr k) o = (v', Ok c) -> o <> [] -> In k ks ->
    set_history E n v' ks
| sh_append n v ks W front x k o v' c : set_history E n v ks -> Forall plain o ->
    append_at E W front v x (PStr k :: o) = (v', Ok c) -> ~ In k ks ->
    set_history E (S n) v' (ks ++ [k])
| sh_append_inside n v ks W front x k o v' c : set_history E n v ks -> Forall plain o ->
    append_at E W front v x (PStr k :: o) = (v', Ok c) -> In k ks ->
    set_history E n v' ks
| sh_before n v ks W x p o v' c : set_history E n v ks ->
    insert_before E W v x p o = (v', Ok c) -> set_history E n v' ks
| sh_after n v ks W x p o v' c : set_history E n v ks ->
    insert_after E W v x p o = (v', Ok c) -> set_history E n v' ks
| sh_delete n v ks W k v' : set_history E n v ks ->
    delete_at E W false v (PStr k) [] = (v', Ok tt) -> set_history E n v' (without k ks)
(* caseless: the name that is gone *)
| sh_delete_caseless n v ks W k k' i kvs lo : set_history E n v ks ->
    delete_at E W true v (PStr k) [] = (VObj i kvs lo, Ok tt) -> In k' ks -> ~ In k' (map fst kvs) ->
    set_history E n (VObj i kvs lo) (without k' ks)
| sh_delete_inside n v ks W cl p q o v' : set_history E n v ks -> plain p ->
    delete_at E W cl v p (q :: o) = (v', Ok tt) -> set_history E n v' ks
(* calls that fail *)
| sh_set_failed n v ks x p o : set_history E n v ks ->
    failed (snd (set_at E v x p o)) -> set_history E n (fst (set_at E v x p o)) ks
| sh_before_failed n v ks W x p o : set_history E n v ks ->
    failed (snd (insert_before E W v x p o)) -> set_history E n (fst (insert_before E W v x p o)) ks
| sh_after_failed n v ks W x p o : set_history E n v ks ->
    failed (snd (insert_after E W v x p o)) -> set_history E n (fst (insert_after E W v x p o)) ks
| sh_append_failed n v ks W front x ps : set_history E n v ks ->
    failed (snd (append_at E W front v x ps)) -> set_history E n (fst (append_at E W front v x ps)) ks
| sh_delete_failed n v ks W cl p o : set_history E n v ks ->
    failed (snd (delete_at E W cl v p o)) -> set_history E n (fst (delete_at E W cl v p o)) ks.
