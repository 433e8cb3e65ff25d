(** * The texts of Parse's errors: values (proofs for C79) *)
From Coq Require Import Ascii String List NArith ZArith Bool Lia.
From Verif Require Import GoStr GoNum GoFloat Heap Common ValueModel ArrayModel MapModel JsonModel ParserModel
  StrLemmas SpecDict SpecNum NumLemmas SpecFloat FloatFacts SpecDoc SpecText SpecToken SpecParse SpecPanic SpecWorld Inv World Reach
  TreeParser TextRun TokenFacts ParseTop ParseFacts TidyFacts ParseMore PanicFacts OriginFacts SpecScalar ScalarFacts ScalarRun ScalarTop
  SpecEvery EveryFacts EveryTop ShowFacts MessageModel SpecMessage.
Import ListNotations.
Local Arguments space_byte : simpl never.

(** ** Decimal digits *)
Lemma say_decimals : decimals say_int.
Proof.
  intros n. unfold say_int, format_int. destruct (Z.ltb_spec (Z.of_nat n) 0); [lia|]. apply format_uint_spec. lia.
Qed.

Lemma decimals_eq D n : decimals D -> D n = say_int n.
Proof.
  intros H. destruct (H n) as [N C]. destruct (say_decimals n) as [N' C'].
  rewrite <- (app_nil_r (D n)) in N. rewrite <- (app_nil_r (say_int n)) in N'.
  now destruct (numeral_canonical_eq _ _ _ _ _ N N' C C' eq_refl).
Qed.

Lemma sign_texts_eq D t : decimals D -> sign_texts D t = sign_texts say_int t.
Proof. intros H. unfold sign_texts. destruct (occurrences _ t) as [|[|n]]; auto. now rewrite decimals_eq. Qed.
Lemma point_texts_eq D t : decimals D -> point_texts D t = point_texts say_int t.
Proof. intros H. unfold point_texts. destruct (occurrences _ t) as [|[|n]]; auto. now rewrite decimals_eq. Qed.
Lemma value_says_eq D v ms : decimals D -> (value_says D v ms <-> value_says say_int v ms).
Proof.
  intros H. split; intros S; inversion S; subst; try (econstructor; eauto; fail).
  - rewrite (sign_texts_eq D), (point_texts_eq D) in *; auto. now apply vs_signs.
  - rewrite <- (sign_texts_eq D), <- (point_texts_eq D) in *; auto. now apply vs_signs.
Qed.
Lemma balance_texts_eq D s : decimals D -> balance_texts D s = balance_texts say_int s.
Proof.
  intros H. unfold balance_texts, unequal. cbv zeta. rewrite !(decimals_eq D) by auto. reflexivity.
Qed.
Lemma wording_eq D e m : decimals D -> wording say_int e m -> wording D e m.
Proof.
  intros H W. inversion W; subst; rewrite <- ?(decimals_eq D) by auto; constructor.
Qed.

(** ** Bytes as Latin-1 *)
Lemma utf8_head c : (exists b, utf8_of_byte c = [c] /\ b = c /\ (N_of_ascii c < 128)%N)
  \/ exists a b, utf8_of_byte c = [a; b] /\ (128 <= N_of_ascii a)%N /\ (128 <= N_of_ascii b)%N /\ (128 <= N_of_ascii c)%N.
Proof.
  destruct (N.ltb_spec (N_of_ascii c) 128) as [L|L].
  - left. exists c. split; auto. unfold utf8_of_byte. now rewrite (proj2 (N.ltb_lt _ _) L).
  - right. destruct (utf8_case c) as [(E & L' & B)|(a & b & E & La & Lb & B)]; [lia|]. exists a, b. repeat split; auto; lia.
Qed.

Lemma occ_latin1 c t : (N_of_ascii c < 128)%N -> occurrences c (latin1 t) = occurrences c t.
Proof.
  intros L. induction t as [|d t IH]; auto. unfold latin1. cbn [flat_map]. fold (latin1 t). rewrite occ_app, IH.
  change (d :: t) with ([d] ++ t). rewrite (occ_app c [d] t). f_equal.
  destruct (utf8_head d) as [(b & -> & _)|(a & b & -> & La & Lb & Lc)]; auto.
  unfold occurrences. cbn [filter].
  assert (forall x, (128 <= N_of_ascii x)%N -> Ascii.eqb c x = false) as Ne.
  { intros x Lx. apply Ascii.eqb_neq. intros ->. lia. }
  now rewrite !Ne.
Qed.

Lemma latin1_cons c t : latin1 (c :: t) = utf8_of_byte c ++ latin1 t.
Proof. reflexivity. Qed.

Lemma head_latin1 t : has_prefix [c_min] (latin1 t) = match t with c :: _ => Ascii.eqb c c_min | [] => false end.
Proof.
  destruct t as [|c t]; auto. rewrite latin1_cons.
  destruct (utf8_head c) as [(b & -> & _)|(a & b & -> & La & Lb & Lc)]; cbn [app has_prefix].
  - rewrite Ascii.eqb_sym. destruct (Ascii.eqb c c_min); reflexivity.
  - assert (Ascii.eqb c_min a = false) as -> by (apply Ascii.eqb_neq; intros <-; vm_compute in La; auto).
    assert (Ascii.eqb c c_min = false) as -> by (apply Ascii.eqb_neq; intros ->; vm_compute in Lc; auto). reflexivity.
Qed.

Lemma unescape_nodq u : ~ In c_dq u -> unescape u = u.
Proof. intros N. rewrite unescape_unesc. now apply unesc_nodq. Qed.

Lemma latin1_dq u : In c_dq (latin1 u) <-> In c_dq u.
Proof.
  split.
  - apply latin1_In. vm_compute. reflexivity.
  - intros I. unfold latin1. apply in_flat_map. exists c_dq. split; auto. now left.
Qed.

Lemma dq_unescape u : In c_dq (unescape u) <-> In c_dq u.
Proof.
  split.
  - assert (H : forall n u, (length u <= n)%nat -> In c_dq (unescape u) -> In c_dq u).
    { induction n as [|n IH]; intros [|a [|b t]] L; cbn [length] in L; try lia; auto.
      change (unescape (a :: b :: t)) with (if Ascii.eqb a c_bs && Ascii.eqb b c_dq then c_dq :: unescape t else a :: unescape (b :: t)).
      destruct (Ascii.eqb a c_bs && Ascii.eqb b c_dq) eqn:E.
      - apply andb_true_iff in E as [_ E]. apply Ascii.eqb_eq in E as ->. intros _. right. now left.
      - intros [->|I]; [now left|]. right. apply IH; auto. cbn [length]. lia. }
    intros I. eapply H; eauto.
  - assert (H : forall n u, (length u <= n)%nat -> In c_dq u -> In c_dq (unescape u)).
    { induction n as [|n IH]; intros [|a [|b t]] L; cbn [length] in L; try lia; auto.
      change (unescape (a :: b :: t)) with (if Ascii.eqb a c_bs && Ascii.eqb b c_dq then c_dq :: unescape t else a :: unescape (b :: t)).
      destruct (Ascii.eqb a c_bs && Ascii.eqb b c_dq) eqn:E; intros I; [now left|].
      destruct I as [->|I]; [now left|]. right. apply IH; auto. cbn [length]. lia. }
    intros I. eapply H; eauto.
Qed.

Lemma token_latin1 u : ~ In c_dq u -> squeeze (unescape (latin1 u)) = latin1 (squeeze u).
Proof.
  intros N. rewrite unescape_nodq by now rewrite latin1_dq. rewrite !latin1_utf8. apply squeeze_latin1.
Qed.

(** ** strconv.Quote *)
Lemma quote_byte b : b <> c_dq -> b <> c_bs -> forall r, quote_body (utf8_of_byte b ++ r) = shown b ++ quote_body r.
Proof.
  intros N1 N2 r. destruct b as [[] [] [] [] [] [] [] []]; try reflexivity; exfalso; [now apply N1|now apply N2].
Qed.

Lemma quote_latin1 t : ~ In c_dq t -> ~ In c_bs t -> quote_body (latin1 t) = flat_map shown t.
Proof.
  induction t as [|c t IH]; intros N1 N2; auto. rewrite latin1_cons. cbn [flat_map].
  rewrite quote_byte by (intros ->; (apply N1 + apply N2); now left).
  now rewrite IH by (intros I; (apply N1 + apply N2); now right).
Qed.

Lemma squeeze_nobs t : ~ In c_bs (squeeze t).
Proof. unfold squeeze. rewrite filter_In. intros [_ H]. discriminate. Qed.
Lemma squeeze_incl t c : In c (squeeze t) -> In c t.
Proof. unfold squeeze. rewrite filter_In. tauto. Qed.

(** ** strconv.ParseUint *)
Lemma digit_val_ok c : is_digit c -> digit_val c = Some (digit c).
Proof.
  unfold is_digit, digit, digit_val. intros H. rewrite (proj2 (Z.leb_le _ _)), (proj2 (Z.leb_le _ _)) by lia. reflexivity.
Qed.
Lemma digit_val_no c : ~ is_digit c -> digit_val c = None.
Proof.
  unfold is_digit, digit, digit_val. intros H. destruct (Z.leb_spec 48 (Z.of_N (N_of_ascii c))); auto.
  destruct (Z.leb_spec (Z.of_N (N_of_ascii c)) 57); auto. exfalso. apply H. lia.
Qed.
Lemma digit_dec c : is_digit c \/ ~ is_digit c.
Proof. unfold is_digit. lia. Qed.

Lemma scan_latin1 t : forall acc, uint_scan acc (latin1 t) = uint_scan acc t.
Proof.
  induction t as [|c t IH]; intros acc; auto. rewrite latin1_cons.
  destruct (utf8_head c) as [(b & -> & _)|(a & b & -> & La & Lb & Lc)]; cbn [app uint_scan].
  - destruct (digit_val c); auto. destruct (_ <=? _)%Z; auto.
  - rewrite !digit_val_no; auto; unfold is_digit, digit; lia.
Qed.

Lemma scan_range t : forall acc, (0 <= acc < 2 ^ 64)%Z ->
  (uint_scan acc t = Some NumRange
   <-> exists p q, t = p ++ q /\ Forall is_digit p /\ (2 ^ 64 <= acc * 10 ^ Z.of_nat (length p) + decimal p)%Z).
Proof.
  induction t as [|c t IH]; intros acc A; cbn [uint_scan].
  - split; [discriminate|]. intros (p & q & E & _ & L). destruct p; [|discriminate]. cbn [length decimal] in L. exfalso. lia.
  - destruct (digit_dec c) as [Dc|Nc].
    + rewrite digit_val_ok by auto. pose proof Dc as Dc'. unfold is_digit in Dc'.
      destruct (Z.leb_spec (acc * 10 + digit c) (2 ^ 64 - 1)) as [L|L].
      * rewrite IH by lia. split.
        -- intros (p & q & -> & F & G). exists (c :: p), q. repeat split; auto. cbn [length decimal]. rewrite Nat2Z.inj_succ, Z.pow_succ_r by lia. nia.
        -- intros (p & q & E & F & G). destruct p as [|d p].
           { cbn [length decimal] in G. exfalso. lia. }
           inversion E; subst d t. inversion F; subst. exists p, q. repeat split; auto. cbn [length decimal] in G.
           rewrite Nat2Z.inj_succ, Z.pow_succ_r in G by lia. nia.
      * split; auto. intros _. exists [c], t. repeat split; auto. cbn [length decimal]. change (Z.of_nat 1) with 1%Z. change (Z.of_nat 0) with 0%Z. lia.
    + rewrite digit_val_no by auto. split; [discriminate|]. intros (p & q & E & F & G). destruct p as [|d p].
      * cbn [length decimal] in G. exfalso. lia.
      * inversion E; subst d t. inversion F; subst. contradiction.
Qed.

Lemma reason_range t : uint_reason t = NumRange <-> starts_too_large t.
Proof.
  unfold uint_reason, starts_too_large. destruct t as [|c t].
  - split; [discriminate|]. intros (p & q & E & _ & L). destruct p; [cbn in L; lia|discriminate].
  - assert (H : uint_scan 0 (c :: t) = Some NumRange <-> starts_too_large (c :: t)).
    { rewrite scan_range by lia. unfold starts_too_large. split; intros (p & q & E & F & L); exists p, q; repeat split; auto; lia. }
    unfold starts_too_large in H. rewrite <- H. destruct (uint_scan 0 (c :: t)) as [[]|]; split; auto; discriminate.
Qed.

Lemma reason_latin1 t : uint_reason (latin1 t) = uint_reason t.
Proof.
  unfold uint_reason. rewrite scan_latin1. destruct t as [|c t]; auto. rewrite latin1_cons.
  destruct (utf8_head c) as [(b & -> & _)|(a & b & -> & _)]; reflexivity.
Qed.

Lemma uint_text t : ~ In c_dq t -> ~ In c_bs t ->
  lit "error: strconv.ParseUint(*string_value, 10, 64) error " ++ uint_error (latin1 t)
  = say_number t (match uint_reason t with NumSyntax => lit "invalid syntax" | NumRange => lit "value out of range" end).
Proof.
  intros N1 N2. unfold uint_error, go_quote, say_number. rewrite quote_latin1, reason_latin1 by auto.
  change (lit "error: strconv.ParseUint(*string_value, 10, 64) error strconv.ParseUint: parsing """)
    with (lit "error: strconv.ParseUint(*string_value, 10, 64) error " ++ lit "strconv.ParseUint: parsing " ++ [c_dq]).
  rewrite <- !app_assoc. do 2 f_equal. cbn [app]. f_equal. rewrite <- app_assoc. f_equal. destruct (uint_reason t); reflexivity.
Qed.

(** ** Scalars *)
Lemma sign_model t :
  (match count_byte c_min (latin1 t) with
   | 0 => []
   | 1 => if has_prefix [c_min] (latin1 t) then [] else [lit "error: negative symbol is not at the start of the number"]
   | _ => [lit "error: value contained " ++ say_int (count_byte c_min (latin1 t)) ++ lit " negative symbols expected 1"]
   end) = sign_texts say_int t.
Proof.
  rewrite count_occurrences, occ_latin1, head_latin1 by reflexivity. unfold sign_texts. change "-"%char with c_min.
  destruct (occurrences c_min t) as [|[|n]] eqn:E; auto. destruct t as [|c t]; [discriminate|]. reflexivity.
Qed.
Lemma point_model t :
  (match count_byte c_dot (latin1 t) with
   | 0 | 1 => []
   | _ => [lit "error: value contained " ++ say_int (count_byte c_dot (latin1 t)) ++ lit " decimal points expected 1"]
   end) = point_texts say_int t.
Proof.
  rewrite count_occurrences, occ_latin1 by reflexivity. unfold point_texts. change "."%char with c_dot.
  destruct (occurrences c_dot t) as [|[|n]]; auto.
Qed.

Definition sign_kinds (s : str) : list err :=
  (match count_byte c_min s with
   | 0 => []
   | 1 => if has_prefix [c_min] s then [] else [ENegPos]
   | _ => [ENegCount]
   end) ++ (match count_byte c_dot s with 0 | 1 => [] | _ => [EDotCount] end).

Lemma sign_wording t : Forall2 (wording say_int) (sign_kinds (latin1 t)) (sign_texts say_int t ++ point_texts say_int t).
Proof.
  unfold sign_kinds, sign_texts, point_texts. rewrite !count_occurrences, !occ_latin1, head_latin1 by reflexivity.
  change "-"%char with c_min. change "."%char with c_dot.
  apply Forall2_app.
  - destruct (occurrences c_min t) as [|[|n]] eqn:E; [constructor| |repeat constructor; apply (wd_negcount say_int (S (S n)))].
    destruct t as [|c t]; [discriminate|]. destruct (Ascii.eqb c c_min); repeat constructor.
  - destruct (occurrences c_dot t) as [|[|n]]; [constructor|constructor|repeat constructor; apply (wd_dots say_int (S (S n)))].
Qed.

Definition plain_token (u : str) : Prop := ~ In c_dq u /\ ~ In c_bs u.

(** Kinds and texts, side by side. *)
Lemma number_cases t : plain_token t ->
  match number_token (latin1 t) with
  | GVal _ => number_says (latin1 t) = []
  | GErr e =>
      number_says (latin1 t) = sign_texts say_int t ++ point_texts say_int t /\ number_says (latin1 t) <> []
        /\ e = sign_kinds (latin1 t)
      \/ sign_texts say_int t ++ point_texts say_int t = [] /\
         (e = [EFloatSyn] /\ number_says (latin1 t) = [say_float]
          \/ e = [EIntSyn] /\ number_says (latin1 t) = [say_negative]
          \/ e = [EUintSyn] /\ number_says (latin1 t)
               = [say_number t (match uint_reason t with NumSyntax => lit "invalid syntax" | NumRange => lit "value out of range" end)])
  end.
Proof.
  intros [N1 N2]. unfold number_token, number_says. cbv zeta. rewrite sign_model, point_model.
  fold (sign_kinds (latin1 t)). pose proof (sign_wording t) as W.
  destruct (sign_texts say_int t ++ point_texts say_int t) as [|m ms]; inversion W; subst.
  - destruct (Nat.eqb _ 1).
    + destruct (parse_float F64 (latin1 t)); [destruct (parse_float F32 (latin1 t)); reflexivity|]. right. split; auto.
    + destruct (Nat.eqb _ 1).
      * destruct (parse_int 64 (latin1 t)); [reflexivity|]. right. split; auto.
      * destruct (parse_uint 64 (latin1 t)); [reflexivity|]. right. split; auto. right. right. split; auto.
        rewrite uint_text; auto.
  - left. split; [reflexivity|]. split; [discriminate|reflexivity].
Qed.

Lemma squeeze_token u : ~ In c_dq u -> plain_token (squeeze u).
Proof. intros N. split; [intros I; now apply squeeze_incl in I|apply squeeze_nobs]. Qed.

Lemma eqb_lit t l : str_eqb t l = true -> t = l.
Proof. now apply str_eqb_eq. Qed.

Lemma scalar_cases u : ~ In c_dq u ->
  match scalar_token (unescape (latin1 u)) with
  | GVal _ => scalar_says (unescape (latin1 u)) = []
  | GErr e =>
      let t := squeeze u in
      scalar_says (unescape (latin1 u)) = sign_texts say_int t ++ point_texts say_int t /\ scalar_says (unescape (latin1 u)) <> []
        /\ e = sign_kinds (latin1 t)
      \/ sign_texts say_int t ++ point_texts say_int t = [] /\
         (e = [EFloatSyn] /\ scalar_says (unescape (latin1 u)) = [say_float]
          \/ e = [EIntSyn] /\ scalar_says (unescape (latin1 u)) = [say_negative]
          \/ e = [EUintSyn] /\ scalar_says (unescape (latin1 u))
               = [say_number t (match uint_reason t with NumSyntax => lit "invalid syntax" | NumRange => lit "value out of range" end)])
  end.
Proof.
  intros N. unfold scalar_token, scalar_says. rewrite strip_squeeze, token_latin1 by auto. cbv zeta.
  destruct (str_eqb _ (lit "true")); [reflexivity|]. destruct (str_eqb _ (lit "false")); [reflexivity|].
  destruct (str_eqb _ (lit "null")); [reflexivity|]. destruct (str_eqb _ []); [reflexivity|]. cbn [orb].
  apply number_cases. now apply squeeze_token.
Qed.

(** ** Values *)
Definition val_says (v : str) : list str :=
  let u := unescape (latin1 (strip v)) in
  if contains_byte c_dq u then
    if is_quoted u then match slice_inner u with Some _ => [] | None => [say_quote u] end
    else [say_quote u]
  else scalar_says u.

Lemma means_denote v r : value_means v r -> r = denote v.
Proof. intros H. eapply value_fun; eauto. apply denote_means. Qed.

Lemma strip_nodq v : contains_byte c_dq (unescape (latin1 (strip v))) = false -> ~ In c_dq (strip v).
Proof.
  intros C I. apply latin1_dq, dq_unescape, contains_byte_In in I. congruence.
Qed.

Lemma denote_scalar v : contains_byte c_dq (unescape (latin1 (strip v))) = false ->
  denote v = tok_of (scalar_token (unescape (latin1 (strip v)))).
Proof.
  intros C. unfold denote. cbv zeta. rewrite C. unfold scalar_token. rewrite strip_squeeze. reflexivity.
Qed.

Lemma tok_err r e : tok_of r = TokErr e -> r = GErr e.
Proof. destruct r as [p|e']; cbn; [destruct (doc_of p); discriminate|]. congruence. Qed.

Lemma says_val v ms : value_says say_int v ms -> ms = val_says v.
Proof.
  intros H. unfold val_says. cbv zeta. inversion H; subst.
  - match goal with M : value_means _ _ |- _ => apply means_denote in M; subst r end.
    destruct (contains_byte c_dq (unescape (latin1 (strip v)))) eqn:C.
    + unfold denote in *. cbv zeta in *. rewrite C in *. destruct (is_quoted _); [|exfalso; eapply H1; reflexivity].
      destruct (slice_inner _); auto. exfalso; eapply H1; reflexivity.
    + rewrite denote_scalar in * by auto. pose proof (scalar_cases (strip v) (strip_nodq v C)) as S.
      destruct (scalar_token _) as [p|e]; auto. exfalso. eapply H1. reflexivity.
  - match goal with T : trimmed _ _ |- _ => apply trimmed_strip in T; subst u end.
    assert (C : contains_byte c_dq (unescape (latin1 (strip v))) = true) by (apply contains_byte_In, dq_unescape, latin1_dq; auto).
    rewrite C. destruct (is_quoted _) eqn:Q; auto. destruct (slice_inner _) as [b|] eqn:Sl; auto.
    exfalso. apply slice_quoted_eq in Sl; auto. eapply H2, Sl.
  - match goal with T : trimmed _ _ |- _ => apply trimmed_strip in T; subst u end.
    assert (C : contains_byte c_dq (unescape (latin1 (strip v))) = false).
    { destruct (contains_byte _ _) eqn:C; auto. apply contains_byte_In in C. rewrite dq_unescape, latin1_dq in C. contradiction. }
    rewrite C. pose proof (scalar_cases (strip v) H1) as S. destruct (scalar_token _) as [p|e] eqn:E.
    + exfalso. unfold scalar_token in E. rewrite strip_squeeze, token_latin1 in E by auto.
      assert (Nt : forall l, ~ In c_min l -> ~ In c_dot l -> latin1 (squeeze (strip v)) <> l).
      { intros l A B El. apply H2. unfold sign_texts, point_texts. rewrite <- (occ_latin1 "-"), <- (occ_latin1 ".") by reflexivity.
        rewrite El. rewrite !occ_none; [reflexivity| |]; intros x I ->; contradiction. }
      destruct (str_eqb _ (lit "true")) eqn:E1; [apply eqb_lit in E1; exfalso; revert E1; apply Nt; cbn; intuition discriminate|].
      destruct (str_eqb _ (lit "false")) eqn:E2; [apply eqb_lit in E2; exfalso; revert E2; apply Nt; cbn; intuition discriminate|].
      destruct (str_eqb _ (lit "null")) eqn:E3; [apply eqb_lit in E3; exfalso; revert E3; apply Nt; cbn; intuition discriminate|].
      destruct (str_eqb _ []) eqn:E4; [apply eqb_lit in E4; exfalso; revert E4; apply Nt; cbn; intuition discriminate|].
      unfold number_token in E. cbv zeta in E. fold (sign_kinds (latin1 (squeeze (strip v)))) in E.
      pose proof (sign_wording (squeeze (strip v))) as W. destruct (sign_kinds _); [|discriminate]. inversion W as [Q|]. congruence.
    + cbv zeta in S. destruct S as [(-> & _)|[Z _]]; [reflexivity|]. contradiction.
  - match goal with M : value_means _ _ |- _ => apply means_denote in M; rename M into Md end.
    destruct (contains_byte c_dq (unescape (latin1 (strip v)))) eqn:C.
    { unfold denote in Md. cbv zeta in Md. rewrite C in Md. destruct (is_quoted _); [destruct (slice_inner _)|]; discriminate. }
    rewrite denote_scalar in Md by auto. symmetry in Md. apply tok_err in Md. pose proof (scalar_cases (strip v) (strip_nodq v C)) as S.
    rewrite Md in S. cbv zeta in S. destruct S as [(_ & _ & E)|[_ [[_ S]|[[? _]|[? _]]]]]; try discriminate; auto.
    exfalso. revert E. unfold sign_kinds. destruct (count_byte _ _) as [|[|?]]; [|destruct (has_prefix _ _)|]; destruct (count_byte _ _) as [|[|?]]; discriminate.
  - match goal with M : value_means _ _ |- _ => apply means_denote in M; rename M into Md end.
    destruct (contains_byte c_dq (unescape (latin1 (strip v)))) eqn:C.
    { unfold denote in Md. cbv zeta in Md. rewrite C in Md. destruct (is_quoted _); [destruct (slice_inner _)|]; discriminate. }
    rewrite denote_scalar in Md by auto. symmetry in Md. apply tok_err in Md. pose proof (scalar_cases (strip v) (strip_nodq v C)) as S.
    rewrite Md in S. cbv zeta in S. destruct S as [(_ & _ & E)|[_ [[? _]|[[_ S]|[? _]]]]]; try discriminate; auto.
    exfalso. revert E. unfold sign_kinds. destruct (count_byte _ _) as [|[|?]]; [|destruct (has_prefix _ _)|]; destruct (count_byte _ _) as [|[|?]]; discriminate.
  - match goal with T : trimmed _ _ |- _ => apply trimmed_strip in T; subst u end.
    match goal with M : value_means _ _ |- _ => apply means_denote in M; rename M into Md end.
    destruct (contains_byte c_dq (unescape (latin1 (strip v)))) eqn:C.
    { unfold denote in Md. cbv zeta in Md. rewrite C in Md. destruct (is_quoted _); [destruct (slice_inner _)|]; discriminate. }
    rewrite denote_scalar in Md by auto. symmetry in Md. apply tok_err in Md. pose proof (scalar_cases (strip v) (strip_nodq v C)) as S.
    rewrite Md in S. cbv zeta in S. destruct S as [(_ & _ & E)|[_ [[? _]|[[? _]|[_ S]]]]]; try discriminate.
    { exfalso. revert E. unfold sign_kinds. destruct (count_byte _ _) as [|[|?]]; [|destruct (has_prefix _ _)|]; destruct (count_byte _ _) as [|[|?]]; discriminate. }
    rewrite S. match goal with L : starts_too_large _ |- _ => apply reason_range in L; rewrite L end. reflexivity.
  - match goal with T : trimmed _ _ |- _ => apply trimmed_strip in T; subst u end.
    match goal with M : value_means _ _ |- _ => apply means_denote in M; rename M into Md end.
    destruct (contains_byte c_dq (unescape (latin1 (strip v)))) eqn:C.
    { unfold denote in Md. cbv zeta in Md. rewrite C in Md. destruct (is_quoted _); [destruct (slice_inner _)|]; discriminate. }
    rewrite denote_scalar in Md by auto. symmetry in Md. apply tok_err in Md. pose proof (scalar_cases (strip v) (strip_nodq v C)) as S.
    rewrite Md in S. cbv zeta in S. destruct S as [(_ & _ & E)|[_ [[? _]|[[? _]|[_ S]]]]]; try discriminate.
    { exfalso. revert E. unfold sign_kinds. destruct (count_byte _ _) as [|[|?]]; [|destruct (has_prefix _ _)|]; destruct (count_byte _ _) as [|[|?]]; discriminate. }
    rewrite S. destruct (uint_reason (squeeze (strip v))) eqn:Rz; [reflexivity|]. apply reason_range in Rz. contradiction.
Qed.

Lemma val_exists v : value_says say_int v (val_says v).
Proof.
  assert (Tr : trimmed v (strip v)) by now apply trimmed_strip. pose proof (denote_means v) as Dm.
  assert (Ex : exists ms, value_says say_int v ms).
  { destruct (denote v) as [|d|e] eqn:Dn.
    - exists []. eapply vs_fine; [exact Dm|discriminate].
    - exists []. eapply vs_fine; [exact Dm|discriminate].
    - destruct (contains_byte c_dq (unescape (latin1 (strip v)))) eqn:C.
      + pose proof C as C'. apply contains_byte_In in C'. rewrite dq_unescape, latin1_dq in C'.
        eexists. eapply vs_quote; [exact Tr|exact C'|]. intros b E. unfold denote in Dn. cbv zeta in Dn. rewrite C, E in Dn.
        change (c_dq :: b ++ [c_dq]) with (quoted b) in Dn. rewrite is_quoted_quoted, slice_quoted in Dn. discriminate.
      + rewrite denote_scalar in Dn by auto. apply tok_err in Dn.
        pose proof (strip_nodq v C) as N. pose proof (scalar_cases (strip v) N) as S. rewrite Dn in S. cbv zeta in S.
        destruct S as [(E & Ne & _)|[_ [[-> S]|[[-> S]|[-> S]]]]].
        * eexists. eapply vs_signs; [exact Tr|exact N|]. now rewrite <- E.
        * eexists. eapply vs_float; eauto.
        * eexists. eapply vs_negative; eauto.
        * destruct (uint_reason (squeeze (strip v))) eqn:Rz.
          -- eexists. eapply vs_syntax; eauto. intros L. apply reason_range in L. congruence.
          -- eexists. eapply vs_range; eauto. now apply reason_range. }
  destruct Ex as (ms & H). now rewrite <- (says_val v ms H).
Qed.

(** Kinds and texts of the errors of a value. *)
Lemma val_wording v : match denote v with
  | TokErr e => Forall2 (wording say_int) e (val_says v)
  | _ => val_says v = []
  end.
Proof.
  unfold val_says. destruct (contains_byte c_dq (unescape (latin1 (strip v)))) eqn:C.
  - unfold denote. cbv zeta. rewrite C. destruct (is_quoted _); [destruct (slice_inner _); auto|]; repeat constructor.
  - rewrite denote_scalar by auto. pose proof (scalar_cases (strip v) (strip_nodq v C)) as S.
    destruct (scalar_token _) as [p|e]; cbn [tok_of].
    + destruct (doc_of p); auto.
    + cbv zeta in S. destruct S as [(E & _ & ->)|[_ [[-> ->]|[[-> ->]|[-> ->]]]]].
      * rewrite E. apply sign_wording.
      * repeat constructor.
      * repeat constructor.
      * repeat constructor.
Qed.
