(** The language that the library accepts, as a grammar.  It extends RFC 8259
    (SpecJson.v) by: backspace as white space; commas anywhere between the
    entries of arrays and objects, or missing; raw control characters, [\'] and
    arbitrary bytes after the lead byte of a multi-byte sequence in strings;
    a low surrogate in place of a high one; and some number spellings. *)
From Verif Require Import Base Float64 Value SpecJson.

Definition is_lblank (c : Z) : Prop := is_ws c \/ c = 8.
Definition lblanks (w : bytes) : Prop := Forall is_lblank w.

(** The bytes written for the escape of a pair.  It is the UTF-8 encoding if
    the first half is a high surrogate. *)
Definition pair_bytes (cp : Z) : bytes :=
  [240 + (cp / 262144) mod 8; 128 + (cp / 4096) mod 64; 128 + (cp / 64) mod 64; 128 + cp mod 64].

Inductive lstr : bytes -> bytes -> Prop :=
| LS_nil : lstr [] []
| LS_ascii c t s : 0 <= c <= 127 -> c <> 34 -> c <> 92 -> lstr t s -> lstr (c :: t) (c :: s)
| LS_two c x t s : 192 <= c <= 223 -> lstr t s -> lstr (c :: x :: t) (c :: x :: s)
| LS_three c x y t s : 224 <= c <= 239 -> lstr t s -> lstr (c :: x :: y :: t) (c :: x :: y :: s)
| LS_four c x y z t s : 240 <= c <= 247 -> lstr t s -> lstr (c :: x :: y :: z :: t) (c :: x :: y :: z :: s)
| LS_esc c d t s : simple_esc c d \/ c = 39 /\ d = 39 -> lstr t s -> lstr (92 :: c :: t) (d :: s)
| LS_unicode h cp t s : hex4d h cp -> scalar cp -> lstr t s -> lstr (92 :: 117 :: h ++ t) (utf8 cp ++ s)
| LS_pair h1 h2 hi lo t s :
    hex4d h1 hi -> 55296 <= hi < 57344 -> hex4d h2 lo -> 56320 <= lo < 57344 -> lstr t s ->
    lstr (92 :: 117 :: h1 ++ 92 :: 117 :: h2 ++ t)
         (pair_bytes (65536 + (hi - 55296) * 1024 + (lo - 56320)) ++ s).

(** Number literals accepted.  Differences from RFC 8259: after a minus sign
    one leading zero is allowed; in front of a fraction or an exponent one
    leading zero is allowed, and after a minus sign the integer part may be
    missing.  An integer literal of 20 digits passes if its value modulo 2^64
    is at least 10^19.  In a literal with fraction or exponent no zero digit
    may follow integer digits whose value is a multiple of 2^64 ([no_wrap]),
    and strconv.ParseFloat must accept it. *)
Inductive lax_num : bytes -> Prop :=
| LN_pos ip :
    int_part ip -> (List.length ip <= 20)%nat ->
    (List.length ip = 20%nat -> 10000000000000000000 <= digits_val ip mod two64) ->
    lax_num ip
| LN_neg ip :
    digits ip -> (forall d, ip <> 48 :: 48 :: d) -> (List.length ip <= 19)%nat ->
    digits_val ip <= two63 ->
    lax_num (45 :: ip)
| LN_float (neg : bool) ip fr fd ex e :
    Forall digit ip -> (ip = [] -> neg = true) -> no_wrap ip ->
    frac_part fr fd -> exp_part ex e -> fr ++ ex <> [] ->
    parse_float ((if neg then [45] else []) ++ ip ++ fr ++ ex) <> None ->
    lax_num ((if neg then [45] else []) ++ ip ++ fr ++ ex).

(** The content of the number that is read from an accepted literal.  Integers
    without a sign are reduced modulo 2^64. *)
Inductive lax_value : bytes -> num -> Prop :=
| LX_pos ip n :
    digits ip -> n_neg n = false -> n_flt n = false ->
    n_u64 n = digits_val ip mod two64 -> n_i64 n = wrap_i64 (n_u64 n) -> n_f64 n = f_of_Z (n_u64 n) ->
    lax_value ip n
| LX_neg ip n :
    digits ip -> n_neg n = true -> n_flt n = false ->
    n_i64 n = - digits_val ip -> n_u64 n = wrap_u64 (n_i64 n) -> n_f64 n = f_opp (f_of_Z (digits_val ip)) ->
    lax_value (45 :: ip) n
| LX_float (neg : bool) ip fr fd ex e n :
    Forall digit ip -> (ip = [] -> neg = true) -> frac_part fr fd -> exp_part ex e -> fr ++ ex <> [] ->
    n_flt n = true -> n_neg n = SFltb (n_f64 n) f_zero ->
    (Z.abs e <= 99999 -> n_f64 n = lit_f64 neg ip fd e) ->
    lax_value ((if neg then [45] else []) ++ ip ++ fr ++ ex) n.

(** Bytes that may occur in numbers. *)
Definition number_byte (c : Z) : Prop :=
  digit c \/ c = 43 \/ c = 45 \/ c = 46 \/ c = 69 \/ c = 101.
(** What follows a number literal. *)
Definition after_num (j : jv) (r : bytes) : Prop :=
  match j, r with JNum _, c :: _ => ~ number_byte c | _, _ => True end.

Inductive lval : bytes -> jv -> Prop :=
| LV_null : lval (bs "null") JNull
| LV_true : lval (bs "true") (JBool true)
| LV_false : lval (bs "false") (JBool false)
| LV_num lit : lax_num lit -> lval lit (JNum lit)
| LV_str t s : lstr t s -> lval (34 :: t ++ [34]) (JStr s)
| LV_arr t l : lelems t l -> lval (91 :: t ++ [93]) (JArr l)
| LV_obj t l : lmembers t l -> lval (123 :: t ++ [125]) (JObj l)
with lelems : bytes -> list jv -> Prop :=
| LE_end w : lblanks w -> lelems w []
| LE_comma w t l : lblanks w -> lelems t l -> lelems (w ++ 44 :: t) l
| LE_cons w t j te l :
    lblanks w -> lval t j -> after_num j te -> lelems te l -> lelems (w ++ t ++ te) (j :: l)
with lmembers : bytes -> list (bytes * jv) -> Prop :=
| LM_end w : lblanks w -> lmembers w []
| LM_comma w t l : lblanks w -> lmembers t l -> lmembers (w ++ 44 :: t) l
| LM_cons w1 tk k w2 w3 t j tm l :
    lblanks w1 -> lstr tk k -> lblanks w2 -> lblanks w3 -> lval t j -> after_num j tm -> lmembers tm l ->
    lmembers (w1 ++ 34 :: tk ++ 34 :: w2 ++ 58 :: w3 ++ t ++ tm) ((k, j) :: l).

Scheme lval_mut := Minimality for lval Sort Prop
with lelems_mut := Minimality for lelems Sort Prop
with lmembers_mut := Minimality for lmembers Sort Prop.
Combined Scheme lax_mutind from lval_mut, lelems_mut, lmembers_mut.

Definition lax_doc (b : bytes) (j : jv) : Prop :=
  exists w1 t w2, b = w1 ++ t ++ w2 /\ lblanks w1 /\ lval t j /\ lblanks w2.

(** [tree_of PN j v]: the value [v] represents the tree [j], where [PN lit n]
    says which numbers represent a literal.  For objects: one entry per name,
    the names are those of [j], and the entry of a name is the last member of
    that name. *)
Section TreeOf.
Variable PN : bytes -> num -> Prop.
Inductive tree_of : jv -> V -> Prop :=
| TO_null : tree_of JNull VNull
| TO_bool b : tree_of (JBool b) (VBool b)
| TO_num lit n : PN lit n -> tree_of (JNum lit) (VNum n lit)
| TO_str s : tree_of (JStr s) (VStr s)
| TO_arr l l' : Forall2 tree_of l l' -> tree_of (JArr l) (VArr l')
| TO_obj l i kvs lo :
    NoDup (map fst kvs) ->
    (forall k, In k (map fst kvs) <-> In k (map fst l)) ->
    (forall l1 k x l2, l = l1 ++ (k, x) :: l2 -> ~ In k (map fst l2) ->
       exists id x', In (k, (id, x')) kvs /\ tree_of x x') ->
    tree_of (JObj l) (VObj i kvs lo).
End TreeOf.
