(** C89: a document read part by part, in terms of Unmarshal and Set. *)
From Verif Require Import Base Float64 Value Unmarshal Path Edit SpecJson SpecLax.

(** What may stand between parts: blanks and commas. *)
Definition filler (w : bytes) : Prop := Forall (fun c => is_lblank c \/ c = 44) w.

(** If the text [t] of a part ends with a number, that number must not go on in [r]. *)
Definition cleanly (v : V) (t r : bytes) : Prop :=
  match v, r with
  | VNum _ src, c :: _ => (exists t', t = t' ++ src) -> ~ number_byte c
  | _, _ => True
  end.

(** [elements E m vs]: the text [m] consists of texts for which Unmarshal gives the values [vs]. *)
Inductive elements (E : Env) : bytes -> list V -> Prop :=
| EL_end w : filler w -> elements E w []
| EL_next w t v r vs : filler w -> unmarshal E t = Ok (v, None) -> cleanly v t r -> elements E r vs ->
    elements E (w ++ t ++ r) (v :: vs).

(** [members E m o o']: the text [m] consists of names and values, and [o'] is what the calls
    o.Set(value).At(name) make of [o], one after the other. *)
Inductive members (E : Env) : bytes -> V -> V -> Prop :=
| ME_end w o : filler w -> members E w o o
| ME_next w tk k t v r o o' : filler w -> unmarshal E tk = Ok (VStr k, None) -> unmarshal E t = Ok (v, None) -> cleanly v t r ->
    members E r (fst (set_at E o (arg_v v) (PStr k) [])) o' -> members E (w ++ tk ++ 58 :: t ++ r) o o'.
