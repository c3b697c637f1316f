(** Edits that do not undo each other, and instances of those that do. *)
From Verif Require Import Base Utf8 Float64 Value Opt Marshal SpecText Access Path Edit SpecPath SpecReach SpecLaws ExampleWorld LawsProof.

Definition one_null : V := VArr [VNull].
Definition five_k : list param := [PStr (bs "k")].

Lemma twice_no : exists v1 v2 v2' x y z,
  set_at env0 one_null (arg_v (VBool true)) (PInt 5) five_k = (v1, Ok x) /\
  set_at env0 v1 (arg_v (VBool false)) (PInt 5) five_k = (v2, Ok y) /\
  set_at env0 one_null (arg_v (VBool false)) (PInt 5) five_k = (v2', Ok z) /\
  ~ same_doc v2 v2'.
Proof.
  do 6 eexists. split; [vm_compute; reflexivity|]. split; [vm_compute; reflexivity|]. split; [vm_compute; reflexivity|].
  intros H. apply same_arr_inv in H as (l & E & F). injection E as <-. inversion F as [|? ? ? ? _ F1]; subst. inversion F1 as [|? ? ? ? _ F2]; subst.
  inversion F2.
Qed.

Lemma commute_no : exists v1 v2 v12 v21 x1 x2 x12 x21,
  unrelated (place_of (PInt 5 :: five_k)) (place_of (PInt 7 :: five_k)) /\
  set_at env0 one_null (arg_v (VBool true)) (PInt 5) five_k = (v1, Ok x1) /\
  set_at env0 one_null (arg_v (VBool false)) (PInt 7) five_k = (v2, Ok x2) /\
  set_at env0 v1 (arg_v (VBool false)) (PInt 7) five_k = (v12, Ok x12) /\
  set_at env0 v2 (arg_v (VBool true)) (PInt 5) five_k = (v21, Ok x21) /\
  ~ same_doc v12 v21.
Proof.
  do 8 eexists. split; [unfold unrelated; cbn; split; intros (H & _); discriminate H|].
  do 4 (split; [vm_compute; reflexivity|]).
  intros H. apply same_arr_inv in H as (l & E & F). injection E as <-. inversion F as [|? ? ? ? _ F1]; subst. inversion F1 as [|? ? ? ? H0 F2]; subst.
  apply same_obj_inv in H0 as (i & kvs & lo & E & A & _). injection E as <- <- <-.
  destruct (A _ _ _ (or_introl eq_refl)) as (id & y & [E|[]] & HS). injection E as <- <-. inversion HS.
Qed.

Lemma append_delete_no : exists v' v'' x,
  append_end env0 world1 (VObj 0 [] None) (arg_v (VBool true)) [PStr (bs "list")] = (v', Ok x) /\
  delete_at env0 world1 false v' (PStr (bs "list")) [PInt (-1)] = (v'', Ok tt) /\
  ~ same_doc v'' (VObj 0 [] None).
Proof.
  do 3 eexists. split; [vm_compute; reflexivity|]. split; [vm_compute; reflexivity|].
  intros H. apply same_obj_inv in H as (i & kvs & lo & E & A & _). injection E as <- <- <-.
  destruct (A _ _ _ (or_introl eq_refl)) as (id & y & [] & _).
Qed.

(** A member that holds a nil pointer or the zero value cannot be set back. *)
Lemma set_back_no : exists v', get env0 world1 false (VArr [VNotExist]) (PInt 0) [] = (VArr [VNotExist], Ok VNotExist) /\
  set_at env0 (VArr [VNotExist]) (arg_v VNotExist) (PInt 0) [] = (v', Err ErrValueUninitialized).
Proof. eexists. split; vm_compute; reflexivity. Qed.
