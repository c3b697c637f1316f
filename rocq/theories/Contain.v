(** beta.Contains (beta/contain.go). *)
From Verif Require Import Base Float64 Value Opt Marshal Access Path Iter Compare.

(** Calls [f] on the entries in order; stops at the first answer false. *)
Fixpoint res_forallb {A} (f : A -> res bool) (l : list A) : res bool :=
  match l with
  | [] => Ok true
  | x :: r => let* b := f x in if b then res_forallb f r else Ok false
  end.

(** /repo/beta/contain.go:80-97 subEqual: the elements of [v] from position
    [start] on against those of [l'].  [lv], [ls]: lenV, lenSub. *)
Definition sub_equal (E : Env) (W : World) (path : list key) (v : V) (lv ls : Z) (l' : list V) (start : Z) : res bool :=
  if lv - start <? ls then Ok false
  else res_forallb (fun e : Z * V =>
                      let* vv := snd (must_get E W false v (PInt (start + fst e)) []) in
                      Ok (equal W path vv (snd e)))
         (indexed 0 l').

(** /repo/beta/contain.go:99-104: [n] starting positions from [start] on *)
Fixpoint any_window (f : Z -> res bool) (n : nat) (start : Z) : res bool :=
  match n with
  | O => Ok false
  | S m => let* b := f start in if b then Ok true else any_window f m (start + 1)
  end.

(** /repo/beta/contain.go:68-105 arrayHasSubset *)
Definition array_has_subset (E : Env) (W : World) (path : list key) (v sub : V) : res bool :=
  let* nv := api_len v in
  let* ns := api_len sub in
  let lv := Z.of_nat nv in let ls := Z.of_nat ns in
  if ls =? 0 then Ok true
  else if lv =? ls then Ok (equal W path sub v)
  else if lv <? ls then Ok false
  else any_window (sub_equal E W path v lv ls (array_of sub)) (Z.to_nat (lv - ls + 1)) 0.

(** /repo/beta/contain.go:12-66 Contains without a path, and objectHasSubset.
    A nil [v] is answered false; a nil [sub] panics at ValueType.  [path] only
    names the object for the iteration oracle. *)
Fixpoint contains_here (E : Env) (W : World) (path : list key) (v sub : V) {struct sub} : res bool :=
  match v with
  | VNil => Ok false
  | _ =>
    let* ts := value_type sub in
    if negb (vtype_eqb (vtype_of v) ts) then Ok false
    else
      match sub with
      | VObj _ kvs _ =>
        res_forallb (fun e : bytes * (V -> res bool) =>
                       match snd (get E W false v (PStr (fst e)) []) with
                       | Ok vv => snd e vv
                       | Err _ => Ok false
                       | Panic => Panic
                       | Fuel => Fuel
                       end)
          (go_range W path
             (map (fun e : kv => let '(k, (_, x)) := e in
                     (k, fun vv => contains_here E W (path ++ [string_key k]) vv x)) kvs))
      | VArr _ => array_has_subset E W path v sub
      | _ => Ok (equal W path v sub)
      end
  end.

(** /repo/beta/contain.go:12-46 Contains with the parameter inPath, for [sub] of
    type *V.  The value found is not checked for nil. *)
Definition contains (E : Env) (W : World) (v sub : V) (in_path : list param) : res bool :=
  match v with
  | VNil => Ok false
  | _ =>
    match in_path with
    | [] => contains_here E W [] v sub
    | p :: ps =>
      match snd (get E W false v p ps) with
      | Ok VNil => Panic
      | Ok w => contains_here E W [] w sub
      | Err _ => Ok false
      | Panic => Panic
      | Fuel => Fuel
      end
    end
  end.
