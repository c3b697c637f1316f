(** When a value of the library represents an abstract JSON value. *)
From Verif Require Import Base Float64 Value SpecJson.

(** The numeric content of a number value [n] is the one the literal denotes:
    integers exactly (Uint64 resp. Int64, and both if both can hold it), the
    binary64 nearest to the decimal in any case. *)
Definition num_denotes (n : num) (neg : bool) (ip fd : bytes) (e : Z) (int : bool) : Prop :=
  n_f64 n = lit_f64 neg ip fd e /\
  if int then
    n_flt n = false /\ n_neg n = neg /\
    (neg = false -> n_u64 n = digits_val ip /\
                    (digits_val ip < 9223372036854775808 -> n_i64 n = digits_val ip)) /\
    (neg = true -> n_i64 n = - digits_val ip)
  else n_flt n = true.

(** [denotes j v]: [v] is the tree [j].  For objects: one entry per name, the
    names are those of [j], and every member whose name is not repeated later
    in the text is represented by the entry of that name. *)
Fixpoint denotes (j : jv) (v : V) {struct j} : Prop :=
  match j, v with
  | JNull, VNull => True
  | JBool b, VBool b' => b = b'
  | JNum lit, VNum n src =>
      src = lit /\ exists neg ip fd e i, num_lit lit neg ip fd e i /\ num_denotes n neg ip fd e i
  | JStr s, VStr s' => s = s'
  | JArr l, VArr l' =>
      (fix go (l : list jv) (l' : list V) : Prop :=
         match l, l' with
         | [], [] => True
         | x :: r, x' :: r' => denotes x x' /\ go r r'
         | _, _ => False
         end) l l'
  | JObj l, VObj _ kvs _ =>
      NoDup (map fst kvs) /\
      (forall k, In k (map fst kvs) <-> In k (map fst l)) /\
      (fix go (l : list (bytes * jv)) : Prop :=
         match l with
         | [] => True
         | (k, x) :: r =>
             (~ In k (map fst r) -> exists id x', In (k, (id, x')) kvs /\ denotes x x') /\ go r
         end) l
  | _, _ => False
  end.

(** [json_typed v]: [v] and everything inside it is of a JSON type (string,
    number, object, array, boolean, null), with one entry per member name. *)
Fixpoint json_typed (v : V) : Prop :=
  match v with
  | VStr _ | VNum _ _ | VBool _ | VNull => True
  | VArr l => (fix go (l : list V) : Prop :=
                 match l with [] => True | x :: r => json_typed x /\ go r end) l
  | VObj _ kvs _ =>
      NoDup (map fst kvs) /\
      (fix go (l : list (bytes * (Z * V))) : Prop :=
         match l with [] => True | (_, (_, x)) :: r => json_typed x /\ go r end) kvs
  | _ => False
  end.
