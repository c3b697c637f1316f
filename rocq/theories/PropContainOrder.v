(** C91: the laws of beta.Contains. *)
From Verif Require Import Base Float64 Value Opt Marshal Unmarshal Path Edit Compare Contain SpecValue SpecPath SpecNamePath ContainOrder ExampleWorld.

(** An order: reflexive, transitive, and antisymmetric with Equal for equality. *)
Theorem C91_reflexive : forall (E : Env) (W : World) v, json_typed v -> contains E W v v [] = Ok true.
Proof. exact contains_refl. Qed.
Print Assumptions C91_reflexive.
Theorem C91_transitive : forall (E : Env) (W : World) u v w, json_typed u -> json_typed v -> json_typed w ->
  contains E W u v [] = Ok true -> contains E W v w [] = Ok true -> contains E W u w [] = Ok true.
Proof. exact contains_trans. Qed.
Print Assumptions C91_transitive.
Theorem C91_antisymmetric : forall (E : Env) (W : World) v w, json_typed v -> json_typed w ->
  contains E W v w [] = Ok true -> contains E W w v [] = Ok true -> forall W' path, equal W' path v w = true.
Proof. exact contains_antisym. Qed.
Print Assumptions C91_antisymmetric.

(** A path may be followed by Get first. *)
Theorem C91_path : forall (E : Env) (W : World) v sub ps qs hs x, json_typed v -> json_typed sub -> Forall plain (ps ++ qs) -> leads v ps hs x ->
  contains E W v sub (ps ++ qs) = contains E W x sub qs.
Proof. exact contains_path. Qed.
Print Assumptions C91_path.

(** What contains [v] has at every path of names what [v] has there. *)
Theorem C91_monotone : forall (E : Env) (W : World) u v sub ps, json_typed u -> json_typed v -> json_typed sub -> names ps ->
  contains E W u v [] = Ok true -> contains E W v sub ps = Ok true -> contains E W u sub ps = Ok true.
Proof. exact contains_mono. Qed.
Print Assumptions C91_monotone.

(** Set of a new member in an object at a path of names: the document contains what it was. *)
Theorem C91_set : forall (E : Env) (W : World) v c p ps v' y ps1 k ps2 hs i kvs lo, json_typed v -> json_typed c -> Forall plain (p :: ps) ->
  p :: ps = ps1 ++ PStr k :: ps2 -> names ps1 -> leads v ps1 hs (VObj i kvs lo) -> ~ In k (map fst kvs) ->
  set_at E v (arg_v c) p ps = (v', Ok y) -> contains E W v' v [] = Ok true.
Proof. exact set_contains. Qed.
Print Assumptions C91_set.
(** So after Append, at either end, to an array at a path of names. *)
Theorem C91_append : forall (E : Env) (W W' : World) front v c ps v' y hs l, json_typed v -> json_typed c -> names ps -> leads v ps hs (VArr l) ->
  append_at E W front v (arg_v c) ps = (v', Ok y) -> contains E W' v' v [] = Ok true.
Proof. exact append_contains. Qed.
Print Assumptions C91_append.
(** Before a Delete of a member, or of the first or last element, the document contains what it will be. *)
Theorem C91_delete : forall (E : Env) (W W' : World) v ps p first others v', json_typed v -> first :: others = ps ++ [p] -> names ps ->
  (exists k, p = PStr k) \/ p = PInt 0 \/ p = PInt (-1) ->
  delete_at E W false v first others = (v', Ok tt) -> contains E W' v v' [] = Ok true.
Proof. exact delete_contains. Qed.
Print Assumptions C91_delete.

Definition doc (b : string) : V := match unmarshal env0 (bs b) with Ok (v, None) => v | _ => VNil end.
Example C91_chain :
  let u := doc "{""a"":[0,1,{""x"":2,""y"":[]},3],""b"":null}" in
  let v := doc "{""a"":[1.0,{""y"":[],""x"":2}]}" in
  let w := doc "{""a"":[{""x"":2,""y"":[]}]}" in
  contains env0 world1 u v [] = Ok true /\ contains env0 world1 v w [] = Ok true /\ contains env0 world1 u w [] = Ok true /\
  contains env0 world1 w v [] = Ok false.
Proof. vm_compute. auto. Qed.
Example C91_both_ways :
  let v := doc "{""a"":1,""b"":[2]}" in let w := doc "{""b"":[2.0],""a"":10e-1}" in
  contains env0 world1 v w [] = Ok true /\ contains env0 world1 w v [] = Ok true /\ equal world2 [] v w = true.
Proof. vm_compute. auto. Qed.
Example C91_grown : exists v', let v := doc "{""a"":{}}" in
  set_at env0 v (arg_v VNull) (PStr (bs "a")) [PStr (bs "b"); PInt 0] = (v', Ok VNull) /\
  contains env0 world1 v' v [] = Ok true /\ contains env0 world1 v v' [] = Ok false.
Proof. eexists. cbv zeta. split; [vm_compute; reflexivity|]. split; vm_compute; reflexivity. Qed.
(** Names are needed.  Elements of an array count only if they are Equal: in one of them, something may not be added;
    and the same elements may be elsewhere. *)
Example C91_names_needed :
  (exists v', let v := doc "[{}]" in
     set_at env0 v (arg_v VNull) (PInt 0) [PStr (bs "a")] = (v', Ok VNull) /\ contains env0 world1 v' v [] = Ok false) /\
  let u := doc "[0,1]" in let v := doc "[1]" in
  contains env0 world1 u v [] = Ok true /\ contains env0 world1 v (doc "1") [PInt 0] = Ok true /\ contains env0 world1 u (doc "1") [PInt 0] = Ok false.
Proof. split; [eexists; cbv zeta; split; [vm_compute; reflexivity|]; vm_compute; reflexivity|]. vm_compute. auto. Qed.
(** An element may not be inserted in the middle, nor deleted there. *)
Example C91_ends_needed : exists v', let v := doc "[1,2,3]" in
  delete_at env0 world1 false v (PInt 1) [] = (v', Ok tt) /\ contains env0 world1 v v' [] = Ok false.
Proof. eexists. cbv zeta. split; [vm_compute; reflexivity|]. vm_compute; reflexivity. Qed.
