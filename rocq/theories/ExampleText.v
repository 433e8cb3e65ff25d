(** * Example texts

    Used beside the theorems to show that their hypotheses are met. *)
From Coq Require Import Ascii String List NArith ZArith Bool Lia.
From Verif Require Import GoStr GoNum GoFloat Heap Common ValueModel ArrayModel MapModel JsonModel ParserModel
  SpecDict SpecNum SpecWorld Inv World Reach SpecFloat SpecDoc SpecText SpecToken SpecParse TreeParser ParseTop
  TokenFacts ParseFacts PosFacts TidyFacts TypedFacts TextDec ParseMore FloatFacts ExampleState.
Import ListNotations.

(** Blanks, a nested array and object, and a repeated key; the text is in c03_ex. *)
Definition ex_text : jmembers :=
  MCons (lit " ") (lit "a") (lit " ") (lit " ")
    (JArr (ECons (lit " ") (JTok (lit "1")) (lit " ") true
          (ECons (lit " ") (JTok (lit "-2")) [] true
          (ECons (lit " ") (JTok (lit "null")) [] true
          (ECons [] (JStr (lit "x\""y")) [] false (ENil []))))))
    (lit " ") true
  (MCons (lit " ") (lit "b") [] []
    (JMap (MCons [] (lit "a") [] [] (JTok (lit "true")) [] true
          (MCons (lit " ") (lit "c") (lit " ") (lit " ") (JTok (lit "1.5")) [] false (MNil []))))
    [] true
  (MCons [] (lit "a") [] [] (JTok (lit "300")) (lit " ") false (MNil []))).
Definition ex_doc : doc :=
  DMap [(lit "a", DScal (SInt KUInt16 300));
        (lit "b", DMap [(lit "a", DScal (SBool true)); (lit "c", DScal (SFlt F32 (FFin false 12582912 (-23))))])].

(** The same with other blanks. *)
Definition ex_text2 : jmembers :=
  MCons [] (lit "a") [] []
    (JArr (ECons [] (JTok (lit "1")) [] true
          (ECons [c_nl] (JTok (lit "-2")) [c_tab; c_cr] true
          (ECons [] (JTok (lit "null")) [] true
          (ECons [] (JStr (lit "x\""y")) [] false (ENil []))))))
    [] true
  (MCons [c_nl] (lit "b") [] []
    (JMap (MCons [] (lit "a") [] [] (JTok (lit "true")) [] true
          (MCons (lit " ") (lit "c") (lit " ") (lit " ") (JTok (lit "1.5")) [] false (MNil []))))
    [] true
  (MCons [] (lit "a") [] [] (JTok (lit "300")) [] false (MNil []))).

(** {junk "a" ? : t r ue, "b":,, "c":["p" "q",,7,] "a":{"k":1}trailing} *)
Definition ex_lenient : jmembers :=
  MCons (lit "junk ") (lit "a") (lit " ? ") (lit " ") (JTok (lit "t r ue")) [] true
  (MCons (lit " ") (lit "b") [] [] (JTok []) [] true
  (MCons (lit ", ") (lit "c") [] []
    (JArr (ECons [] (JStr (lit "p")) (lit " ") false (ECons [] (JStr (lit "q")) [] true
          (ECons [] (JTok []) [] true (ECons [] (JTok (lit "7")) [] true (ENil []))))))
    (lit " ") false
  (MCons [] (lit "z") [] [] (JMap (MCons [] (lit "k") [] [] (JTok (lit "1")) [] false (MNil [])))
    (lit "trailing") false (MNil [])))).
Definition ex_lenient_doc : doc :=
  DMap [(lit "a", DScal (SBool true));
        (lit "c", DArr [DScal (SStr (lit "p")); DScal (SStr (lit "q")); DScal (SInt KUInt8 7)]);
        (lit "z", DMap [(lit "k", DScal (SInt KUInt8 1))])].

(** {"a":[1-,{"b":"s","c":2.5.1}],"d":--3.,"e":99999999999999999999} *)
Definition ex_bad : jmembers :=
  MCons [] (lit "a") [] []
    (JArr (ECons [] (JTok (lit "1-")) [] true
          (ECons [] (JMap (MCons [] (lit "b") [] [] (JStr (lit "s")) [] true
                          (MCons [] (lit "c") [] [] (JTok (lit "2.5.1")) [] false (MNil [])))) [] false (ENil []))))
    [] true
  (MCons [] (lit "d") [] [] (JTok (lit "--3.")) [] true
  (MCons [] (lit "e") [] [] (JTok (lit "99999999999999999999")) [] false (MNil []))).

(** The object text with the single key a. *)
Definition a_of (t : string) : str := lit "{""a"":" ++ lit t ++ lit "}".

Lemma ex_text_ok : members_ok true ex_text /\ members_ok false ex_text /\ plain_tokens ex_text.
Proof.
  split; [apply membersb_ok; vm_compute; reflexivity|]. split; [apply membersb_ok; vm_compute; reflexivity|].
  apply plain_tokensb_ok; vm_compute; reflexivity.
Qed.
Lemma ex_text2_ok : members_ok true ex_text2 /\ members_ok false ex_text2.
Proof. split; apply membersb_ok; vm_compute; reflexivity. Qed.
Lemma ex_lenient_ok : members_ok false ex_lenient /\ plain_tokens ex_lenient.
Proof. split; [apply membersb_ok; vm_compute; reflexivity|apply plain_tokensb_ok; vm_compute; reflexivity]. Qed.
Lemma ex_bad_ok : members_ok false ex_bad /\ plain_tokens ex_bad.
Proof. split; [apply membersb_ok; vm_compute; reflexivity|apply plain_tokensb_ok; vm_compute; reflexivity]. Qed.
Lemma ex_parses : parses std_ext ex_state (text_of (JMap ex_text)) (GVal ex_doc).
Proof. apply parses_tree; [apply ex_reachable|vm_compute; reflexivity]. Qed.
Lemma ex_lenient_parses : parses std_ext ex_state (text_of (JMap ex_lenient)) (GVal ex_lenient_doc).
Proof. apply parses_tree; [apply ex_reachable|vm_compute; reflexivity]. Qed.

Definition ex_T (t : str) : tokres :=
  if str_eqb t (lit "1") then TokDoc (DScal (SInt KUInt8 1))
  else if str_eqb t (lit "-2") then TokDoc (DScal (SInt KInt8 (-2)))
  else if str_eqb t (lit "null") then TokDoc DNull
  else if str_eqb t (lit "true") then TokDoc (DScal (SBool true))
  else if str_eqb t (lit "1.5") then TokDoc (DScal (SFlt F32 (FFin false 12582912 (-23))))
  else TokDoc (DScal (SInt KUInt16 300)).

Definition ex_bad_T (t : str) : tokres :=
  if str_eqb t (lit "1-") then TokErr [ENegPos]
  else if str_eqb t (lit "2.5.1") then TokErr [EDotCount]
  else if str_eqb t (lit "--3.") then TokErr [ENegCount]
  else TokErr [EUintSyn].

Lemma narrow_u z k : In k unsigned_types -> (0 <= z <= 2 ^ width true k - 1)%Z ->
  (forall k', In k' unsigned_types -> (z <= 2 ^ width true k' - 1)%Z -> (width true k <= width true k')%Z) ->
  narrowest unsigned_types z k.
Proof. intros I H H'. split; auto. split; [now apply fits_u|]. intros k' I' F. apply fits_u in F; auto. apply H'; auto. lia. Qed.

Lemma ex_fraction i f : Forall is_digit i -> Forall is_digit f -> i ++ f <> [] ->
  fraction (i ++ "."%char :: f) (decimal (i ++ f)) (10 ^ Z.of_nat (length f)).
Proof.
  intros A B C. exists i, f, [], 0%Z. rewrite app_nil_r, Z.mul_1_r. repeat split; auto. left. auto.
Qed.
Lemma ex_fraction15 : fraction (lit "1.5") 15 10.
Proof. apply (ex_fraction (lit "1") (lit "5")); [repeat constructor; cbv; congruence..|discriminate]. Qed.

Lemma ex_text_tokens : forall t, In t (tokens_members ex_text) -> token_means t (ex_T t).
Proof.
  pose proof ex_text_ok as (_ & _ & P).
  intros t I. split; [unfold plain_tokens in P; rewrite Forall_forall in P; auto|].
  cbn in I. destruct I as [<-|[<-|[<-|[<-|[<-|[<-|[]]]]]]].
  - apply lx_nat; [apply numeralb_ok; vm_compute; reflexivity|]. apply narrow_u; cbn [unsigned_types In width]; auto; [lia|].
    intros k' [<-|[<-|[<-|[<-|[]]]]]; cbn [width]; lia.
  - apply (lx_neg (lit "2") 2 KInt8); [apply numeralb_ok; vm_compute; reflexivity|].
    split; [cbn; auto|]. split; [left; split; [unfold is_signed; auto|cbn; lia]|].
    intros k' [<-|[<-|[<-|[<-|[]]]]] _; cbn [width]; lia.
  - apply lx_null.
  - apply lx_true.
  - apply (lx_float32 false (lit "1.5") 15 10 (FFin false 12582912 (-23)) ex_fraction15).
    assert (Q : round_opt F32 false 15 10 = Some (FFin false 12582912 (-23))) by (vm_compute; reflexivity).
    rewrite <- Q. apply rounds_to_round; lia.
  - apply lx_nat; [apply numeralb_ok; vm_compute; reflexivity|]. apply narrow_u; cbn [unsigned_types In width]; auto; [lia|].
    intros k' [<-|[<-|[<-|[<-|[]]]]]; cbn [width]; lia.
Qed.

Lemma ex_bad_tokens : forall t, In t (tokens_members ex_bad) -> token_means t (ex_bad_T t).
Proof.
  pose proof ex_bad_ok as (_ & P).
  intros t I. split; [unfold plain_tokens in P; rewrite Forall_forall in P; auto|].
  cbn in I. destruct I as [<-|[<-|[<-|[<-|[]]]]].
  - apply (lx_signs (lit "1-")). discriminate.
  - apply (lx_signs (lit "2.5.1")). discriminate.
  - apply (lx_signs (lit "--3.")). discriminate.
  - apply (lx_nat_big (lit "99999999999999999999") 99999999999999999999); [apply numeralb_ok; vm_compute; reflexivity|lia].
Qed.
