(** Specification of the text of a key path. *)
From Verif Require Import Base Float64 Value Opt Marshal Defaults SpecJson SpecText SpecLax.

(** The text of a key: an integer in decimal, a string between quotes.  The text
    between the quotes denotes the string, ill-formed UTF-8 in it repaired; it is that
    of a JSON string if the string has no U+000B. *)
Inductive key_text : key -> bytes -> Prop :=
| KT_int k t : k_s k = [] -> decimal t (k_i k) -> key_text k t
| KT_str k s t : k_s k <> [] -> fixed (k_s k) s -> lstr t s -> (~ In 11 (k_s k) -> str_body t s) ->
    key_text k (34 :: t ++ [34]).

(** Keys with one space in between. *)
Inductive keys_text : list key -> bytes -> Prop :=
| KS_none : keys_text [] []
| KS_last k t : key_text k t -> keys_text [k] t
| KS_more k t l r : key_text k t -> l <> [] -> keys_text l r -> keys_text (k :: l) (t ++ 32 :: r).

(** The last call that touched the default options was SetDefaultMarshalOptions. *)
Definition default_is_set (cs : list api_call) : Prop :=
  exists before opts after, cs = before ++ CallSetDefault opts :: after /\
    Forall (fun c => exists o v, c = CallMarshal o v) after.

(** The same key: a string of that name, or an integer of that value. *)
Definition same_key (k k' : key) : Prop := k_s k = k_s k' /\ (k_s k = [] -> k_i k = k_i k').
