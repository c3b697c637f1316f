(** Marshal, Equal and deepCopy with a stack, as Stack.v has it for the parser: [d] more calls of the functions
    for arrays and objects may be made inside the present one. *)
From Verif Require Import Base Float64 Value Opt Marshal Compare Import.

Section Writer.
Variable E : Env.
Variable W : World.
Variable o : opt.

(** /repo/marshal.go:66-84, 219-250, 294-325, as [marshal_to] in Marshal.v.  The calls are at lines 79 and 81
    of marshalToBuffer; running out of stack is [Panic]. *)
Fixpoint marshal_to_d (v : V) : nat -> option pinfo -> list key -> nat -> mres :=
  fun d pi path cnt =>
  match v with
  | VNil => Panic
  | VNotExist | VUnknown => mok []
  | VStr s => mok (quoted (o_esc o) s)
  | VBool b => mok (if b then bs "true" else bs "false")
  | VNum n src => marshal_number E o n src
  | VNull => mok (bs "null")
  | VObj _ kvs _ =>
    match d with
    | O => Panic
    | S d' =>
      let es := map (fun x => Entry (fst x) (fst (snd x)) (snd (snd x)) (marshal_to_d (snd (snd x)) d')) kvs in
      match es with
      | [] => mok [123; 125]
      | _ =>
        let* b := write_members o pi path (S cnt) true (order_entries W o pi path es) in
        mok (123 :: b ++ nl_indent o cnt ++ [125])
      end
    end
  | VArr l =>
    match d with
    | O => Panic
    | S d' =>
      match l with
      | [] => mok [91; 93]
      | _ =>
        let* b := write_elems o v pi path (S cnt) 0 (map (fun x => marshal_to_d x d') l) in
        mok (91 :: b ++ nl_indent o cnt ++ [93])
      end
    end
  end.

End Writer.

(** /repo/marshal.go:38-53 *)
Definition marshal_opt_d (E : Env) (W : World) (o : opt) (d : nat) (v : V) : res bytes :=
  match v with
  | VNil => Panic
  | VNotExist => Err ErrValueUninitialized
  | _ =>
    let* (b, e) := marshal_to_d E W o v d None [] 0 in
    match e with
    | Some e => Err e
    | None => Ok b
    end
  end.

(** The loops of /repo/compare.go:107-136, which end at the first difference; [None] is running out of stack. *)
Fixpoint every {A} (f : A -> option bool) (l : list A) : option bool :=
  match l with
  | [] => Some true
  | x :: r => match f x with Some true => every f r | q => q end
  end.

(** /repo/compare.go:72-136 Equal, objectEqual, arrayEqual, as [equal] in Compare.v. *)
Fixpoint equal_d (W : World) (d : nat) (path : list key) (v a : V) {struct v} : option bool :=
  match v, a with
  | VStr s, VStr t => Some (beqb s t)
  | VNum _ s, VNum _ t => Some (number_equal s t)
  | VBool b, VBool c => Some (Bool.eqb b c)
  | VNull, VNull => Some true
  | VObj _ kvs _, VObj _ kvs' _ =>
    match d with
    | O => None
    | S d' =>
      if negb (List.length kvs =? List.length kvs')%nat then Some false
      else
        every (fun e : bytes * (V -> option bool) =>
                 match alookup (fst e) kvs' with
                 | Some (_, y) => snd e y
                 | None => Some false
                 end)
          (go_range W path
             (map (fun e : bytes * (Z * V) =>
                     let '(k, (_, x)) := e in (k, fun y => equal_d W d' (path ++ [string_key k]) x y)) kvs))
    end
  | VArr l, VArr l' =>
    match d with
    | O => None
    | S d' =>
      if negb (List.length l =? List.length l')%nat then Some false
      else
        (fix go (i : Z) (l l' : list V) : option bool :=
           match l, l' with
           | x :: r, y :: r' =>
             match equal_d W d' (path ++ [int_key i]) x y with Some true => go (i + 1) r r' | q => q end
           | _, _ => Some true
           end) 0 l l'
    end
  | _, _ => Some false
  end.

(** All of a list, or nothing. *)
Fixpoint all_of {A B} (f : A -> option B) (l : list A) : option (list B) :=
  match l with
  | [] => Some []
  | x :: r => match f x with
              | Some y => match all_of f r with Some r' => Some (y :: r') | None => None end
              | None => None
              end
  end.

(** /repo/jsonvalue.go:135-163 and 496-525 deepCopy, as [deep_copy] in Import.v; the calls are at lines 143 and
    154. *)
Fixpoint deep_copy_d (v : V) (d : nat) : option V :=
  match v with
  | VStr s => Some (VStr s)
  | VNum n src => Some (VNum n src)
  | VObj i kvs _ =>
    match d with
    | O => None
    | S d' =>
      match all_of (fun e : kv => let '(k, (id, x)) := e in
                      match deep_copy_d x d' with Some y => Some (k, (id, y)) | None => None end) kvs with
      | Some kvs' => Some (VObj i kvs' None)
      | None => None
      end
    end
  | VArr l =>
    match d with
    | O => None
    | S d' => match all_of (fun x => deep_copy_d x d') l with Some l' => Some (VArr l') | None => None end
    end
  | VBool b => Some (VBool b)
  | VNull => Some VNull
  | VNotExist | VUnknown | VNil => Some VNotExist
  end.
