(** Specification of the accessors: what number a text spells, what the typed
    getters return, what String prints, what the predicates say. *)
From Verif Require Import Base Float64 Value SpecJson SpecText SpecLax.

(** The type of a JSON value. *)
Definition type_of_json (j : jv) : vtype :=
  match j with
  | JNull => TNull | JBool _ => TBoolean | JNum _ => TNumber | JStr _ => TString | JArr _ => TArray | JObj _ => TObject
  end.

(** *** Numbers in strings *)

(** Unicode White_Space. *)
Definition space_char (cp : Z) : Prop :=
  9 <= cp <= 13 \/ cp = 32 \/ cp = 133 \/ cp = 160 \/ cp = 5760 \/ 8192 <= cp <= 8202 \/
  cp = 8232 \/ cp = 8233 \/ cp = 8239 \/ cp = 8287 \/ cp = 12288.
Definition spaces (w : bytes) : Prop := exists l, Forall space_char l /\ w = utf8_enc l.

(** The text [s] is the number literal [lit], between white space. *)
Definition spells (s lit : bytes) : Prop :=
  exists w1 w2, spaces w1 /\ spaces w2 /\ lax_num lit /\ s = w1 ++ lit ++ w2.

(** *** The contract of the typed getters.  [r] is what Get returns for the same
    path, [g] what the getter returns: a value and an error. *)

(** GetInt and the others that return a number: [proj] picks the result out of
    a number, [zero] is 0.  A string of white space only is left out. *)
Definition number_contract {A} (zero : A) (proj : num -> A) (r : res V) (g : res (A * option err)) : Prop :=
  match r with
  | Ok (VNum n _) => g = Ok (proj n, None)
  | Ok (VStr s) =>
      ~ spaces s ->
      (exists lit n, spells s lit /\ lax_value lit n /\ g = Ok (proj n, Some ErrTypeNotMatch)) \/
      ((forall lit, ~ spells s lit) /\ g = Ok (zero, Some ErrParseNumberFromString))
  | Ok _ => g = Ok (zero, Some ErrTypeNotMatch)
  | Err e => g = Ok (zero, Some e)
  | _ => False
  end.

(** The accessors Int, Uint, ... of the value [c]: the same without the error. *)
Definition number_of {A} (zero : A) (proj : num -> A) (c : V) (g : res A) : Prop :=
  match c with
  | VNum n _ => g = Ok (proj n)
  | VStr s => s = [] /\ g = Ok zero \/
      (~ spaces s -> (exists lit n, spells s lit /\ lax_value lit n /\ g = Ok (proj n)) \/
                     ((forall lit, ~ spells s lit) /\ g = Ok zero))
  | _ => g = Ok zero
  end.

(** The other getters: [sel] tells the values of the right type. *)
Definition type_contract {A} (zero : A) (sel : V -> option A) (r : res V) (g : res (A * option err)) : Prop :=
  match r with
  | Ok c => match sel c with
            | Some a => g = Ok (a, None)
            | None => g = Ok (zero, Some ErrTypeNotMatch)
            end
  | Err e => g = Ok (zero, Some e)
  | _ => False
  end.

(** GetBool: the value returned beside the error tells whether a number is not
    zero and whether a string is the word true. *)
Definition bool_contract (r : res V) (g : res (bool * option err)) : Prop :=
  match r with
  | Ok (VBool b) => g = Ok (b, None)
  | Ok (VNum n _) => exists b, g = Ok (b, Some ErrTypeNotMatch) /\
      (b = false <-> (n_f64 n = S754_zero true \/ n_f64 n = S754_zero false))
  | Ok (VStr s) => exists b, g = Ok (b, Some ErrTypeNotMatch) /\ (b = true <-> s = bs "true")
  | Ok _ => g = Ok (false, Some ErrTypeNotMatch)
  | Err e => g = Ok (false, Some e)
  | _ => False
  end.

Definition sel_string (c : V) : option bytes := match c with VStr s => Some s | _ => None end.
Definition sel_null (c : V) : option unit := match c with VNull => Some tt | _ => None end.
Definition sel_object (c : V) : option V := match c with VObj _ _ _ => Some c | _ => None end.
Definition sel_array (c : V) : option V := match c with VArr _ => Some c | _ => None end.

(** *** What String prints: strings without quotes, numbers by their text *)
Inductive joined : list bytes -> bytes -> Prop :=
| joined_nil : joined [] []
| joined_one x : joined [x] x
| joined_more x y r t : joined (y :: r) t -> joined (x :: y :: r) (x ++ bs ", " ++ t).

Inductive prints : V -> bytes -> Prop :=
| prints_null : prints VNull (bs "null")
| prints_bool b : prints (VBool b) (if b then bs "true" else bs "false")
| prints_str s : prints (VStr s) s
| prints_num n c src : prints (VNum n (c :: src)) (c :: src)
| prints_arr l parts t : Forall2 prints l parts -> joined parts t -> prints (VArr l) (bs "[" ++ t ++ bs "]")
| prints_obj i kvs lo kvs' parts t :
    Permutation kvs kvs' ->
    Forall2 (fun m part => exists p, prints (snd (snd m)) p /\ part = fst m ++ bs ": " ++ p) kvs' parts ->
    joined parts t -> prints (VObj i kvs lo) (bs "{" ++ t ++ bs "}").

(** The same for every value: a number without text (NaN or an infinity) as
    strconv.FormatFloat(f, 'g', -1, 64) prints it, and what is not a JSON value. *)
Inductive prints_any (E : Env) : V -> bytes -> Prop :=
| PA_plain v t : prints v t -> prints_any E v t
| PA_num n : prints_any E (VNum n []) (fmt_float E (n_f64 n) 103 (-1) 64)
| PA_nil : prints_any E VNil (bs "nil")
| PA_not_exist : prints_any E VNotExist []
| PA_unknown : prints_any E VUnknown []
| PA_arr l parts t : Forall2 (prints_any E) l parts -> joined parts t -> prints_any E (VArr l) (bs "[" ++ t ++ bs "]")
| PA_obj i kvs lo kvs' parts t :
    Permutation kvs kvs' ->
    Forall2 (fun m part => exists p, prints_any E (snd (snd m)) p /\ part = fst m ++ bs ": " ++ p) kvs' parts ->
    joined parts t -> prints_any E (VObj i kvs lo) (bs "{" ++ t ++ bs "}").

(** *** Numbers *)

(** A literal without fraction and exponent. *)
Definition int_lit (lit : bytes) : Prop := digits lit \/ exists ip, lit = 45 :: ip /\ digits ip.
