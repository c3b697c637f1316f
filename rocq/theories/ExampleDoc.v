(** A document used to show that the hypotheses of the parser theorems are met. *)
From Verif Require Import Base Float64 Value Scan Unmarshal Pure ListLemmas SpecJson SpecValue SpecFacts.

(** [ {"k\u00e9":[-12, 2.50e+1 ,"\ud83d\ude00/"],"k\u00e9":{"":true},"n":null} ] with blanks. *)
Definition doc_text : bytes := bs
 " {""k\u00e9"":[-12, 2.50e+1 ,""\ud83d\ude00/""],""k\u00e9"":{"""":true},""n"":null}".

Definition doc_tree : jv :=
  JObj [ ([107; 195; 169], JArr [JNum (bs "-12"); JNum (bs "2.50e+1"); JStr [240; 159; 152; 128; 47]]);
         ([107; 195; 169], JObj [([], JBool true)]);
         (bs "n", JNull) ].

Lemma sb_ascii c t s : 32 <= c < 128 -> c <> 34 -> c <> 92 -> str_body t s -> str_body (c :: t) (c :: s).
Proof.
  intros H1 H2 H3 H. pose proof (SB_raw c t s) as R. unfold utf8 in R.
  replace (c <? 128) with true in R by lia. apply R; unfold scalar; auto; lia.
Qed.

Lemma hexd4 a b c d va vb vc vd cp :
  hexd a va -> hexd b vb -> hexd c vc -> hexd d vd -> cp = va * 4096 + vb * 256 + vc * 16 + vd ->
  hex4d [a; b; c; d] cp.
Proof. intros; subst; now constructor. Qed.

Ltac hexdig := first [ apply HD_dec; vm_compute; split; discriminate | apply HD_low; vm_compute; split; discriminate | apply HD_up; vm_compute; split; discriminate ].
Ltac hex4 := eapply hexd4; [hexdig|hexdig|hexdig|hexdig|reflexivity].

Ltac wsp := match goal with |- ws _ => unfold ws; repeat constructor end.

Lemma key_text : str_body (bs "k\u00e9") [107; 195; 169].
Proof.
  apply (sb_ascii 107 (bs "\u00e9") [195; 169]); try (cbn; lia).
  apply (SB_unicode (bs "00e9") 233 [] []); [hex4|unfold scalar; lia|constructor].
Qed.

Lemma num1 : num_lit (bs "-12") true (bs "12") [] 0 true.
Proof. apply (NumLit true (bs "12") [] [] [] 0); [apply IP_pos; [cbn; lia|repeat constructor; cbn; lia]|constructor|constructor]. Qed.

Lemma num2 : num_lit (bs "2.50e+1") false (bs "2") (bs "50") 1 false.
Proof.
  apply (NumLit false (bs "2") (bs ".50") (bs "50") (bs "e+1") 1).
  - apply IP_pos; [cbn; lia|constructor].
  - apply (FP_some (bs "50")). split; [discriminate|repeat constructor; cbn; lia].
  - apply (EP_plus 101 (bs "1")); [auto|]. split; [discriminate|repeat constructor; cbn; lia].
Qed.

Lemma doc_ok : json_doc doc_text doc_tree.
Proof.
  exists (bs " "), (tl doc_text), []. split; [reflexivity|]. split; [wsp|]. split; [|wsp].
  set (m := tl doc_text).
  change m with (123 :: (removelast (tl m)) ++ [125]). apply JT_obj. cbn [m tl doc_text bs].
  apply (JM_cons [] (bs "k\u00e9") [107;195;169] [] [] (bs "[-12, 2.50e+1 ,""\ud83d\ude00/""]") [] _
          (bs """k\u00e9"":{"""":true},""n"":null"));
    try wsp; try apply key_text.
  { apply (JT_arr (bs "-12, 2.50e+1 ,""\ud83d\ude00/""")).
    apply (JE_cons [] (bs "-12") [] _ (bs " 2.50e+1 ,""\ud83d\ude00/""")); try wsp.
    { eapply JT_num, num1. }
    apply (JE_cons (bs " ") (bs "2.50e+1") (bs " ") _ (bs """\ud83d\ude00/""")); try wsp.
    { eapply JT_num, num2. }
    apply (JE_one [] (bs """\ud83d\ude00/""") []); try wsp.
    apply (JT_str (bs "\ud83d\ude00/")).
    apply (SB_pair (bs "d83d") (bs "de00") 55357 56832 (bs "/") (bs "/")); try hex4; try lia.
    apply sb_ascii; try (cbn; lia). constructor. }
  apply (JM_cons [] (bs "k\u00e9") [107;195;169] [] [] (bs "{"""":true}") [] _ (bs """n"":null"));
    try wsp; try apply key_text.
  { apply (JT_obj (bs """"":true")).
    apply (JM_one [] [] [] [] [] (bs "true") []); try wsp; constructor. }
  apply (JM_one [] (bs "n") (bs "n") [] [] (bs "null") []); try wsp.
  { apply sb_ascii; try (cbn; lia); constructor. }
  constructor.
Qed.

Ltac parts := match goal with |- context [num_parts ?l] =>
  let x := eval vm_compute in (num_parts l) in change (num_parts l) with x; cbn iota end.

Lemma doc_lits : all_lits lit_ok doc_tree.
Proof.
  split; [split; [|split; [|split; exact I]]|repeat split; exact I]; apply lit_ok_intro; parts.
  - vm_compute; discriminate.
  - split; [vm_compute; exact I|]. split; [lia|].
    intros p q H Hp. exfalso. destruct p as [|x p]; [congruence|]. destruct p; discriminate.
Qed.

(** A literal that is valid, finite and rejected. *)
Definition bad_lit : bytes := bs "184467440737095516160.5".

Lemma bad_doc : json_doc bad_lit (JNum bad_lit).
Proof.
  exists [], bad_lit, []. rewrite app_nil_r. split; [reflexivity|]. split; [constructor|]. split; [|constructor].
  eapply JT_num. apply (NumLit false (bs "184467440737095516160") (bs ".5") (bs "5") [] 0).
  - apply IP_pos; [cbn; lia|repeat constructor; cbn; lia].
  - apply (FP_some (bs "5")). split; [discriminate|repeat constructor; cbn; lia].
  - constructor.
Qed.

Lemma bad_fits : lit_fits bad_lit.
Proof. apply lit_fits_intro. vm_compute. exact I. Qed.

Lemma bad_rejected E : unmarshal E bad_lit = Ok (VNotExist, Some EOther).
Proof. vm_compute. reflexivity. Qed.
