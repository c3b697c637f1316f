(** The shared predictor of sizes (C33). *)
From Verif Require Import Base Float64 Value Scan Unmarshal Pool PoolProof.

(** C33 is false.  One goroutine that parses [""] 2^31 - 8 times (the count of
    values stays 1, so the stored size grows until it leaves its 32 bits) and
    then [5] 2^31 - 1 times divides by zero in the next call, whatever the
    document. *)
Theorem C33_refuted : forall (E : Env) b, b <> [] -> exists docs s,
  Forall (fun d => d = bs """""" \/ d = bs "5") docs /\ reach E 1 (b :: docs) (s, [T_panic]).
Proof. exact predictor_panics. Qed.
Print Assumptions C33_refuted.

(** C33 holds for every number of goroutines and every interleaving as long as
    the documents without any array, object or number are less than 2 GiB in
    sum: no call panics and every prediction lies between 0 and the size of the
    input. *)
Theorem C33_interleavings_partial : forall (E : Env) n docs s ts, reach E n docs (s, ts) ->
  Forall (fun b => Z.of_nat (List.length b) < 2147483648) docs -> plain_bytes E docs < 2147483648 ->
  Forall (fun t => t <> T_panic /\ forall b cnt, t = T_parse b cnt -> 0 <= cnt <= Z.of_nat (List.length b)) ts.
Proof. exact predictor_safe. Qed.
Print Assumptions C33_interleavings_partial.

(** The values taken from the pool: at most one per byte; at least one for an
    array, an object or an accepted number, so that such documents do not count
    above. *)
Theorem C33_taken : forall (E : Env) b, (taken E b <= List.length b)%nat /\
  (forall w c t, b = w ++ c :: t -> Forall (fun x => In x [32; 9; 10; 13; 8]) w -> c = 91 \/ c = 123 -> (1 <= taken E b)%nat) /\
  (forall n src, unmarshal E b = Ok (VNum n src, None) -> (1 <= taken E b)%nat).
Proof. exact documents_take. Qed.
Print Assumptions C33_taken.

(** Two goroutines; the second one loads the counters while the first one is
    between its loads and its store, and the first update is lost. *)
Example C33_instance : forall E,
  taken E (bs "[1,""a"",{""k"":2}]") = 4%nat /\ taken E (bs """a""") = 0%nat /\ taken E (bs "[[[") = 3%nat /\
  reach E 2 [bs "[1]"; bs "[22222]"] (Shared 0 (19 * 4294967296 + 3), [T_idle; T_idle]).
Proof.
  intros E. split; [vm_compute; reflexivity|]. split; [vm_compute; reflexivity|]. split; [vm_compute; reflexivity|].
  assert (R1 : reach E 2 [bs "[22222]"] (shared0, [T_load (bs "[22222]"); T_idle])).
  { apply (R_start E 2 [] _ shared0 _ [] T_idle _ [T_idle]); [apply R_init|]. apply TS_start; [discriminate|reflexivity]. }
  pose proof (R_step E 2 _ _ _ [] _ _ [T_idle] R1 (TS_load E _ _)) as R2. vm_compute in R2.
  assert (R3 : reach E 2 [bs "[1]"; bs "[22222]"] (shared0, [T_parse (bs "[22222]") 0; T_load (bs "[1]")])).
  { apply (R_start E 2 _ _ shared0 _ [T_parse (bs "[22222]") 0] T_idle _ []); [exact R2|]. apply TS_start; [discriminate|reflexivity]. }
  pose proof (R_step E 2 _ _ _ [T_parse (bs "[22222]") 0] _ _ [] R3 (TS_load E _ _)) as R4. vm_compute in R4.
  pose proof (R_step E 2 _ _ _ [] _ _ [T_parse (bs "[1]") 0] R4 (TS_release E _ _ _)) as R5. vm_compute in R5.
  pose proof (R_step E 2 _ _ _ [T_store 98784247811] _ _ [] R5 (TS_release E _ _ _)) as R6. vm_compute in R6.
  pose proof (R_step E 2 _ _ _ [] _ _ [T_store 81604378627] R6 (TS_store E _ _)) as R7. vm_compute in R7.
  exact (R_step E 2 _ _ _ [T_idle] _ _ [] R7 (TS_store E _ _)).
Qed.
