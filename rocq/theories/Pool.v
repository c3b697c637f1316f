(** The predictor of the number of values in a document, which all calls of
    Unmarshal share, and the pool that is sized by it:
    /repo/jsonvalue_internal.go:14-112.

    Simplifications: the atomic loads and stores are sequentially consistent
    steps (Go memory model); the memory that make reserves is not modelled, only
    the number of values asked for. *)
From Verif Require Import Base Float64 Value Scan Unmarshal.

(** internal.predict, /repo/jsonvalue_internal.go:16-19 *)
Record shared := Shared {
  sh_per : Z;   (* bytesPerValue *)
  sh_calc : Z;  (* calcStorage *)
}.

Definition calc_total (v : Z) : Z := Z.shiftr v 32.
Definition calc_num (v : Z) : Z := Z.land v 4294967295.

(** What internalAddPredictSizePerValue stores after it loaded [v]:
    /repo/jsonvalue_internal.go:48-65. *)
Inductive update :=
| U_calc (v : Z)
| U_both (per v : Z)
| U_panic.
Definition add_predict (v total num : Z) : update :=
  let next_total := wrap_u64 (wrap_u64 total + calc_total v) in
  let next_num := wrap_u64 (wrap_u64 num + calc_num v) in
  if next_total <? 2147483647
  then U_calc (wrap_u64 (wrap_u64 (Z.shiftl next_total 32) + next_num))
  else if next_num =? 0 then U_panic
  else let per := next_total / next_num in
       U_both per (wrap_u64 (wrap_u64 (Z.shiftl per 32) + 1)).

(** init, /repo/jsonvalue_internal.go:27-34 *)
Definition shared0 : shared :=
  match add_predict 0 16 1 with
  | U_calc v => Shared 0 v
  | U_both per v => Shared per v
  | U_panic => Shared 0 0
  end.

(** The values that the parser takes from the pool ([poolImpl.actual]). *)
Definition taken (E : Env) (b : bytes) : nat :=
  match run_unmarshal E b with
  | POk _ s => p_act s
  | PErr _ s => p_act s
  | _ => 0
  end.

(** A goroutine that calls Unmarshal (or UnmarshalNoCopy) again and again; the
    state says what it does next. *)
Inductive thread :=
| T_idle                          (* outside *)
| T_load (b : bytes)              (* bytesPerValue was 0: load calcStorage *)
| T_parse (b : bytes) (cnt : Z)   (* has a pool of [cnt] values; parse, then load calcStorage *)
| T_store_per (per v : Z)         (* store bytesPerValue, then calcStorage *)
| T_store (v : Z)                 (* store calcStorage *)
| T_panic.

(** newPool after the prediction, /repo/jsonvalue_internal.go:85-97: the
    division, and make with a negative length. *)
Definition new_pool (b : bytes) (per : Z) : thread :=
  if per =? 0 then T_panic
  else let cnt := Z.quot (Z.of_nat (List.length b)) per in
       if cnt <? 0 then T_panic else T_parse b cnt.

Definition after_update (u : update) : thread :=
  match u with
  | U_calc v => T_store v
  | U_both per v => T_store_per per v
  | U_panic => T_panic
  end.

(** One atomic step of a goroutine; [Some b] if it enters Unmarshal with [b]. *)
Inductive tstep (E : Env) : option bytes -> shared * thread -> shared * thread -> Prop :=
| TS_start_per b s : b <> [] -> 0 < sh_per s ->
    tstep E (Some b) (s, T_idle) (s, new_pool b (wrap_i64 (sh_per s)))
| TS_start b s : b <> [] -> sh_per s = 0 ->
    tstep E (Some b) (s, T_idle) (s, T_load b)
| TS_load b s :
    tstep E None (s, T_load b)
      (s, if calc_num (sh_calc s) =? 0 then T_panic
          else new_pool b (wrap_i64 (calc_total (sh_calc s) / calc_num (sh_calc s))))
| TS_release b cnt s :
    tstep E None (s, T_parse b cnt)
      (s, after_update (add_predict (sh_calc s) (Z.of_nat (List.length b)) (Z.of_nat (taken E b))))
| TS_store_per per v s :
    tstep E None (s, T_store_per per v) (Shared per (sh_calc s), T_store v)
| TS_store v s :
    tstep E None (s, T_store v) (Shared (sh_per s) v, T_idle).

(** Any number of goroutines in any interleaving.  The list holds the documents
    passed to Unmarshal so far, the latest first. *)
Inductive reach (E : Env) (n : nat) : list bytes -> shared * list thread -> Prop :=
| R_init : reach E n [] (shared0, repeat T_idle n)
| R_start docs b s s' l t t' r :
    reach E n docs (s, l ++ t :: r) -> tstep E (Some b) (s, t) (s', t') ->
    reach E n (b :: docs) (s', l ++ t' :: r)
| R_step docs s s' l t t' r :
    reach E n docs (s, l ++ t :: r) -> tstep E None (s, t) (s', t') ->
    reach E n docs (s', l ++ t' :: r).

(** The bytes of the documents that take no value from the pool. *)
Definition plain_bytes (E : Env) (docs : list bytes) : Z :=
  fold_right (fun b z => (if (taken E b =? 0)%nat then Z.of_nat (List.length b) else 0) + z) 0 docs.
