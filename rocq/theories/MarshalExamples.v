(** Concrete values for the properties of Marshal. *)
From Verif Require Import Base Utf8 Float64 Value Scan Unmarshal Opt Marshal Defaults
  SpecJson SpecValue SpecLax SpecText SpecOrder SpecOut SpecOpts
  ValueLemmas EscapeProof MarshalProof RoundTrip MarshalFacts IndentProof MarshalClaims ExampleWorld ExampleDoc.

Definition nlit (s : string) : V := VNum (Num false false 0 0 f_zero) (bs s).

Definition ex_val : V :=
  VObj 2 [(bs "x/<", (1, VArr [VNull; VBool true; nlit "-1.5"; VStr [195; 169; 255; 10]])); (bs "a", (2, VObj 0 [] None))] None.
Definition opt_loose : opt := combine_options opt0 [OUTF8; OEscapeHTML false; OEscapeSlash false].

Lemma str_ok_bytes s : forallb (fun c => (0 <=? c) && (c <=? 255) && negb (c =? 11)) s = true -> str_ok s.
Proof.
  intros H. rewrite forallb_forall in H. split.
  - apply Forall_forall. intros c Hc. apply H in Hc. unfold is_byte. lia.
  - intros Hc. apply H in Hc. discriminate.
Qed.

Lemma lit_m15 : rfc_lit (bs "-1.5").
Proof.
  exists true, [49], [53], 0, false. apply (NumLit true [49] [46; 53] [53] [] 0).
  - apply (IP_pos 49 []); [lia|constructor].
  - apply (FP_some [53]). split; [discriminate|]. repeat constructor; lia.
  - constructor.
Qed.

Lemma ex_val_ok : json_typed ex_val /\ all_text str_ok (fun _ src => rfc_lit src) ex_val /\
  marshal_opt env0 world1 opt0 ex_val = Ok (bs "{""x\/\u003C"":[null,true,-1.5,""\u00E9\uFFFD\n""],""a"":{}}") /\
  marshal_opt env0 world2 opt_loose ex_val =
    Ok (bs "{""a"":{},""x/<"":[null,true,-1.5,""" ++ [195; 169; 239; 191; 189] ++ bs "\n""]}").
Proof.
  split; [|split; [|split; vm_compute; reflexivity]].
  - apply json_typed_obj. split; [cbn; repeat (constructor; [cbn; intuition discriminate|]); constructor|].
    constructor; [|constructor; [|constructor]]; cbn; auto. split; constructor.
  - cbn. repeat split; try (apply str_ok_bytes; reflexivity). exact lit_m15.
Qed.

Definition opt_pretty : opt := combine_options opt0 [OIndent [] (bs "  "); opt_default_string_sequence; OEscapeSlash false].
Definition ex_pretty : bytes :=
  bs "{" ++ 10 :: bs "  ""k"": [" ++ 10 :: bs "    1.0e3," ++ 10 :: bs "    ""\uD83D\uDE00" ++ [11] ++ bs """" ++ 10 ::
  bs "  ]," ++ 10 :: bs "  ""m"": {" ++ 10 :: bs "    ""n"": null" ++ 10 :: bs "  }" ++ 10 :: bs "}".

Lemma names_ascii (kvs : list (bytes * (Z * V))) : Forall (fun k => Forall (fun c => 0 <= c <= 127) k) (map fst kvs) -> names_distinct kvs.
Proof.
  intros H k1 k2 s H1 H2 F1 F2. rewrite Forall_forall in H. apply H in H1, H2.
  pose proof (fixed_well_formed _ (ascii_wf _ H1)) as G1. pose proof (fixed_well_formed _ (ascii_wf _ H2)) as G2.
  pose proof (well_formed_bytes _ (ascii_wf _ H1)) as B1. pose proof (well_formed_bytes _ (ascii_wf _ H2)) as B2.
  rewrite (fixed_fix _ _ B1 G1), (fixed_fix _ _ B2 G2). rewrite <- (fixed_fix _ _ B1 F1). now apply fixed_fix.
Qed.

Ltac ascii_keys := apply names_ascii; cbn; repeat (apply Forall_cons; [repeat (apply Forall_cons; [lia|]); apply Forall_nil|]); apply Forall_nil.

Lemma ex_round_trip : forall E, exists v v',
  unmarshal E (bs "{""k"":[1.0e3,""\uD83D\uDE00\u000b""],""m"":{""n"":null}}") = Ok (v, None) /\
  marshal_opt E world2 opt_pretty v = Ok ex_pretty /\ unmarshal E ex_pretty = Ok (v', None) /\
  all_objs names_distinct v /\ same_json (fun n _ n' => n = n') false v v'.
Proof.
  intros E. set (b := bs "{""k"":[1.0e3,""\uD83D\uDE00\u000b""],""m"":{""n"":null}}").
  assert (Hu : exists v, unmarshal E b = Ok (v, None) /\ marshal_opt E world2 opt_pretty v = Ok ex_pretty /\ all_objs names_distinct v).
  { eexists. split; [vm_compute; reflexivity|]. split; [vm_compute; reflexivity|].
    apply all_objs_obj. split; [ascii_keys|]. constructor; [cbn; auto|]. constructor; [|constructor].
    apply all_objs_obj. split; [ascii_keys|]. repeat constructor. }
  destruct Hu as (v & Hu & Hm & Hd).
  assert (Hb : Forall is_byte b) by (match goal with |- Forall ?P ?t => let t' := eval vm_compute in t in change (Forall P t') end; repeat (apply Forall_cons; [unfold is_byte; lia|]); apply Forall_nil).
  destruct (round_trip_parsed E world2 opt_pretty b v) as (b' & v' & H1 & H2 & H3); [|assumption|assumption|].
  { split; [constructor|]. change (ws [32; 32]). repeat (apply Forall_cons; [left; reflexivity|]). apply Forall_nil. }
  rewrite Hm in H1. injection H1 as <-. exists v, v'. repeat (split; [assumption|]). exact (H3 Hd).
Qed.

Lemma vt_not_printable : forall (E : Env) (W : World), exists b c,
  marshal_opt E W opt0 (VStr [11]) = Ok b /\ ~ utf8_on opt0 /\ o_indent opt0 = false /\ In c b /\ ~ printable c.
Proof.
  intros E W. exists [34; 11; 34], 11. split; [reflexivity|]. split; [discriminate|]. split; [reflexivity|].
  split; [now right; left|unfold printable; lia].
Qed.

Lemma ex_fixed :
  fixed [97; 255; 195; 237; 160; 128] ([97] ++ flat_map utf8 (repeat 65533 5)) /\
  marshal_opt env0 world1 opt0 (VStr [97; 255; 195; 237; 160; 128]) = Ok (bs """a\uFFFD\uFFFD\uFFFD\uFFFD\uFFFD""").
Proof.
  split; [|reflexivity].
  pose proof (fix_fixed [97; 255; 195; 237; 160; 128]) as H. unfold fix_utf8 in H.
  match type of H with _ -> fixed _ ?t => let t' := eval vm_compute in t in change t with t' in H end.
  apply H. repeat (constructor; [unfold is_byte; lia|]). constructor.
Qed.

Lemma ex_duplicates : forall E, exists v,
  unmarshal E (bs "{""z"":1,""a"":2,""z"":[{""q"":1,""q"":2}]}") = Ok (v, None) /\
  marshal_opt E world2 (combine_options opt0 [OSetSeq]) v = Ok (bs "{""a"":2,""z"":[{""q"":2}]}").
Proof. intros E. eexists. split; [vm_compute; reflexivity|]. vm_compute. reflexivity. Qed.

Definition ex_members : V := VObj 3 [(bs "c", (1, nlit "1")); (bs "a", (2, nlit "2")); (bs "b", (3, nlit "3"))] None.
Lemma ex_orders : forall E,
  marshal_opt E world1 opt0 ex_members = Ok (bs "{""c"":1,""a"":2,""b"":3}") /\
  marshal_opt E world2 opt0 ex_members = Ok (bs "{""b"":3,""a"":2,""c"":1}") /\
  (forall W, marshal_opt E W opt_sorted ex_members = Ok (bs "{""a"":2,""b"":3,""c"":1}")) /\
  (forall W, marshal_opt E W (combine_options opt0 [OKeySeq [bs "b"; bs "x"; bs "b"]]) ex_members = Ok (bs "{""b"":3,""a"":2,""c"":1}")).
Proof.
  intros E. assert (Ht : json_typed ex_members).
  { apply json_typed_obj. split; [cbn; repeat (constructor; [cbn; intuition discriminate|]); constructor|repeat constructor]. }
  split; [vm_compute; reflexivity|]. split; [vm_compute; reflexivity|]. split; intros W.
  - rewrite (output_determined E W world1); [vm_compute; reflexivity|exact Ht|].
    apply all_objs_obj. split; [exact default_total|repeat constructor].
  - rewrite (output_determined E W world1); [vm_compute; reflexivity|exact Ht|].
    apply all_objs_obj. split; [exact I|repeat constructor].
Qed.

Definition ex_omit : V :=
  VObj 2 [(bs "n", (1, VNull)); (bs "a", (2, VObj 1 [(bs "x", (1, VArr [VNull]))] None))] None.
Lemma ex_omit_ok : forall E, all_objs (omit_guard true) ex_omit /\
  marshal_opt E world1 (combine_options opt0 [OOmitNull true]) ex_omit = Ok (bs "{""a"":{""x"":[null]}}").
Proof.
  intros E. split; [|vm_compute; reflexivity]. apply all_objs_obj. split; [intros _; right; cbn; lia|].
  constructor; [exact I|]. constructor; [|constructor]. apply all_objs_obj. split; [intros _; right; cbn; lia|].
  constructor; [|constructor]. cbn. auto.
Qed.

Definition ex_floats : V :=
  VArr [VNum (Num false false 0 0 S754_nan) []; VNum (Num false false 0 0 (S754_infinity false)) [];
        VNum (Num false false 0 0 (S754_infinity true)) []; nlit "1"].
Lemma ex_policies : forall E,
  marshal_opt E world1 (combine_options opt0 [OInfStr (bs "++inf") []; ONaNNull]) ex_floats
    = Ok (bs "[null,""++inf"",""-inf"",1]") /\
  marshal_opt E world1 (combine_options opt0 [OInfNull; ONaNStr []]) ex_floats = Ok (bs "[""NaN"",null,null,1]").
Proof. intros E. split; vm_compute; reflexivity. Qed.

Definition ex_layout : V := VObj 2 [(bs "a b", (1, VArr [nlit "1"; VObj 0 [] None])); (bs "c", (2, VArr []))] None.
Definition ex_layout_text : bytes :=
  bs "{" ++ 10 :: bs "  ""a b"": [" ++ 10 :: bs "    1," ++ 10 :: bs "    {}" ++ 10 :: bs "  ]," ++ 10 :: bs "  ""c"": []" ++ 10 :: bs "}".
Lemma ex_layout_ok : forall E,
  marshal_opt E world1 opt_pretty ex_layout = Ok ex_layout_text /\
  marshal_opt E world1 (no_indent opt_pretty) ex_layout = Ok (bs "{""a b"":[1,{}],""c"":[]}").
Proof. intros E. split; vm_compute; reflexivity. Qed.

(** Descending order in the object at one path, ascending elsewhere. *)
Definition key_eqb (a b : key) : bool := beqb (k_s a) (k_s b) && (k_i a =? k_i b).
Definition path_eqb (p q : list key) : bool :=
  (List.length p =? List.length q)%nat && forallb (fun x => key_eqb (fst x) (snd x)) (combine p q).
Definition desc_at (p : list key) : less_func := fun pi k1 k2 _ _ =>
  match pi with
  | Some q => if path_eqb (pi_path q) p then bltb k2 k1 else bltb k1 k2
  | None => bltb k1 k2
  end.
Definition ex_pair : V := VObj 2 [(bs "a", (1, VNull)); (bs "b", (2, VNull))] None.
Definition ex_nested : V := VObj 1 [(bs "o", (1, VArr [ex_pair; ex_pair]))] None.
Lemma ex_less_path : forall E,
  proper_call ex_nested (Some (PInfo VNull [string_key (bs "o"); int_key 1])) (bs "a") (bs "b") VNull VNull /\
  marshal_opt E world1 (with_less opt0 (desc_at [string_key (bs "o"); int_key 1])) ex_nested
    = Ok (bs "{""o"":[{""a"":null,""b"":null},{""b"":null,""a"":null}]}").
Proof.
  intros E. split; [|vm_compute; reflexivity].
  exists [SKey (bs "o"); SIdx 1], 2, [(bs "a", (1, VNull)); (bs "b", (2, VNull))], None, 1, 2.
  split; [|split; [|split]].
  - eapply AP_key; [left; reflexivity|]. apply (AP_idx _ 1 ex_pair); [reflexivity|]. apply AP_here.
  - eexists. split; reflexivity.
  - now left.
  - now right; left.
Qed.
