(** Numbers without a text (NaN, infinities) inside a value. *)
From Verif Require Import Base Float64 Value SpecJson.

(** The value without those that are alone in an array. *)
Fixpoint emptied (v : V) : V :=
  match v with
  | VArr l => match l with [VNum _ []] => VArr [] | _ => VArr (map emptied l) end
  | VObj i kvs lo => VObj i (map (fun x => (fst x, (fst (snd x), emptied (snd (snd x))))) kvs) lo
  | _ => v
  end.

(** Such a number occurs in the value. *)
Inductive textless_in : V -> Prop :=
| TL_num n : textless_in (VNum n [])
| TL_arr x l : In x l -> textless_in x -> textless_in (VArr l)
| TL_obj i k id x kvs lo : In (k, (id, x)) kvs -> textless_in x -> textless_in (VObj i kvs lo).
