(** C77: how much work Unmarshal does.  [unmarshal_c] is the parser with a count of the bytes
    it reads, writes, moves, gives to strconv.ParseFloat and uses as keys. *)
From Verif Require Import Base Float64 Value Scan Unmarshal Cost CostProof ExampleWorld.

(** The parser that counts does what the parser does. *)
Theorem C77_same : forall (E : Env) (b : bytes),
  fst (unmarshal_c E b) = unmarshal E b /\ fst (unmarshal_nocopy_c E b) = unmarshal_nocopy E b.
Proof. exact cost_same. Qed.
Print Assumptions C77_same.

(** The work is linear in the length of the text, for every text: documents, other accepted
    texts and refused ones. *)
Theorem C77_linear : forall (E : Env) (b : bytes),
  (snd (unmarshal_nocopy_c E b) <= 6 * List.length b + 20)%nat /\
  (snd (unmarshal_c E b) <= 7 * List.length b + 20)%nat.
Proof. exact work_bound. Qed.
Print Assumptions C77_linear.

(** [{"ab":[1,-2.5]}], 15 bytes: the first byte of each of the 9 tokens is read twice (18); the
    characters of the key and its end quote cost 7, its use as a key 2; 1 costs 4 and -2.5
    costs 9 more. *)
Example C77_instance : snd (unmarshal_nocopy_c env0 (bs "{""ab"":[1,-2.5]}")) = 40%nat /\
  List.length (bs "{""ab"":[1,-2.5]}") = 15%nat.
Proof. vm_compute. auto. Qed.

(** A refused text costs something too. *)
Example C77_refused : snd (unmarshal_nocopy_c env0 (bs "[[[[[")) = 10%nat /\
  snd (unmarshal_nocopy_c env0 (bs """\ud83d\ude0")) = 8%nat.
Proof. vm_compute. auto. Qed.
