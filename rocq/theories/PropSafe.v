(** Series of calls (C54). *)
From Verif Require Import Base Float64 Value Scan Unmarshal Opt Marshal Access Path Edit Iter SpecNil SpecPath SpecSafe SafeProof ExampleWorld.

(** C54: as long as no nil *V is put in, no call in a series panics or hangs, whatever
    the parameters, and no nil *V comes up. *)
Theorem C54_series : forall (E : Env) l v, ~ nil_at v -> Forall (fun x => Forall (fun w => ~ nil_at w) (given (snd x))) l ->
  Forall ends (snd (series E v l)) /\ ~ nil_at (fst (series E v l)).
Proof. exact series_safe. Qed.
Print Assumptions C54_series.

(** Calls that fail among calls that do not. *)
Example C54_instance :
  let acts := [ASet (arg_v VNull) (PStr (bs "a")) [PInt 0]; ASet (arg_v VNull) (PInt 0) []; AAppend true (VNotExist, Some EOther) [PStr (bs "a")];
               AAfter (arg_v (VArr [])) (PSlice [PStr (bs "a"); PInt (-1)]) []; ADelete true (PStr (bs "A")) [PUint 18446744073709551615];
               AInto false (PStr (bs "a")) []; ASort (Some (fun _ _ => true)); AMarshal []; ALoad (bs "{]"); ALoad (bs "[1]"); AGet false POther [PNil]; AMustMarshal []] in
  Forall (fun x => Forall (fun w => ~ nil_at w) (given (snd x))) (map (fun a => (world1, opt0, a)) acts) /\
  snd (series env0 (VObj 0 [] None) (map (fun a => (world1, opt0, a)) acts))
  = [Ok tt; Err ErrParameterError; Ok tt; Ok tt; Ok tt; Ok tt; Ok tt; Ok tt; Err ErrRawBytesUnrecognized; Ok tt; Err EOther; Ok tt].
Proof.
  split; [|vm_compute; reflexivity]. repeat constructor; intros H; inversion H; subst; contradiction.
Qed.

(** A nil *V that is put in makes later calls panic; Set alone refuses it. *)
Example C54_nil : forall (E : Env) (W : World) (d : opt),
  snd (series E (VArr [VNull]) [(W, d, ABefore (arg_v VNil) (PInt 0) []); (W, d, AGet false (PInt 0) [PInt 0])]) = [Ok tt; Panic] /\
  snd (series E (VArr [VNull]) [(W, d, ASet (arg_v VNil) (PInt 0) [])]) = [Err ErrValueUninitialized].
Proof. intros E W d. split; reflexivity. Qed.
