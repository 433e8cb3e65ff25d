(** * Parse on RFC 8259 texts (proofs for C67) *)
From Coq Require Import Ascii String List NArith ZArith Bool Lia.
From Verif Require Import GoStr GoNum GoFloat Heap Common ValueModel ArrayModel MapModel JsonModel ParserModel
  StrLemmas SpecDict DictLemmas SpecNum NumLemmas SpecWorld Inv World Reach SpecFloat FloatFacts SpecUtf8 SpecDoc SpecText SpecToken SpecParse
  TextRun TokenFacts ParseTop ParseFacts PosFacts TypedFacts TidyFacts TextDec ParseMore SpecJson JsonFacts SpecRfc.
Import ListNotations.

(** ** The grammar *)
Scheme jvi := Induction for json_value Sort Prop with jei := Induction for json_elements Sort Prop
  with jmi := Induction for json_members Sort Prop.
Combined Scheme json_ind from jvi, jei, jmi.
Scheme svi := Induction for says_value Sort Prop with sei := Induction for says_elements Sort Prop
  with smi := Induction for says_members Sort Prop.
Combined Scheme says_ind from svi, sei, smi.

Lemma string_body s : json_string s -> exists b, s = lit """" ++ b ++ lit """".
Proof. intros (l & -> & _). eauto. Qed.

Lemma grammar_says :
  (forall s, json_value s -> exists v, says_value s v)
  /\ (forall s, json_elements s -> exists l, says_elements s l)
  /\ (forall s, json_members s -> exists l, says_members s l).
Proof.
  apply json_ind; try (intros; eexists; constructor; eassumption).
  - intros s J. destruct (string_body _ J) as [b ->]. eexists. now apply sv_string.
  - intros l J [v H]. eexists. apply sv_array. exact H.
  - intros l J [v H]. eexists. apply sv_object. exact H.
  - intros a v b A J [x H] B. eexists. apply se_last; eauto.
  - intros a v b l A J [x H] B Jl [xs Hl]. eexists. apply se_more; eauto.
  - intros a k b c v d A K B C J [x H] D. destruct (string_body _ K) as [k' ->]. eexists. apply sm_last; eauto.
  - intros a k b c v d l A K B C J [x H] D Jl [xs Hl]. destruct (string_body _ K) as [k' ->]. eexists. apply sm_more; eauto.
Qed.

Lemma says_grammar :
  (forall s v, says_value s v -> json_value s)
  /\ (forall s l, says_elements s l -> json_elements s)
  /\ (forall s l, says_members s l -> json_members s).
Proof. apply says_ind; intros; constructor; assumption. Qed.

Lemma grammar_iff s : json_value s <-> exists v, says_value s v.
Proof. split; [apply grammar_says|]. intros [v H]. eapply says_grammar, H. Qed.

(** ** Structure *)
Inductive like : jtext -> jval -> Prop :=
| lk_false : like (JTok (lit "false")) (VBool false)
| lk_null : like (JTok (lit "null")) VNull
| lk_true : like (JTok (lit "true")) (VBool true)
| lk_number s : json_number s -> like (JTok s) (VNumber s)
| lk_string b : like (JStr b) (VString b)
| lk_array l vs : like_elems l vs -> like (JArr l) (VArray vs)
| lk_object l ms : like_members l ms -> like (JMap l) (VObject ms)
with like_elems : jelems -> list jval -> Prop :=
| le_nil b : like_elems (ENil b) []
| le_cons pre j v post c r vs : like j v -> like_elems r vs -> like_elems (ECons pre j post c r) (v :: vs)
with like_members : jmembers -> list (str * jval) -> Prop :=
| lm_nil b : like_members (MNil b) []
| lm_cons pre k mid pre2 j v post c r ms :
    like j v -> like_members r ms -> like_members (MCons pre k mid pre2 j post c r) ((k, v) :: ms).
Scheme lki := Induction for like Sort Prop with lei := Induction for like_elems Sort Prop
  with lmi := Induction for like_members Sort Prop.
Combined Scheme like_mutind from lki, lei, lmi.

Lemma ws_blanks s : ws s -> blanks s.
Proof.
  apply Forall_impl. intros c I. unfold blank.
  assert (E : c = ascii_of_N (N_of_ascii c)) by (now rewrite ascii_N_embedding).
  destruct I as [I|[I|[I|[I|[]]]]]; rewrite <- I in E; rewrite E; [now left|right; now left|right; right; now left|right; right; now right].
Qed.

(** A double quote in a string stands after a backslash. *)
Lemma char_quote p u v : json_char p -> p = u ++ c_dq :: v -> exists u', u = u' ++ [c_bs].
Proof.
  intros [(c & -> & S & L & N1 & N2)|[(c & -> & I)|(h & -> & L & H)]] E.
  - exfalso. assert (I : In c_dq (utf8 c)) by (rewrite E; apply in_or_app; right; now left).
    destruct (N.ltb_spec c 128) as [Q|Q].
    + rewrite utf8_ascii in I by auto. destruct I as [I|[]]. apply N1. rewrite <- (N_ascii_embedding c) by lia.
      rewrite I. reflexivity.
    + pose proof (utf8_high c S Q) as F. rewrite Forall_forall in F. apply F in I. cbn in I. lia.
  - destruct u as [|a [|b u]].
    + exfalso. injection E as E _. discriminate.
    + injection E as <- E _. now exists [].
    + exfalso. apply (f_equal (@length ascii)) in E. cbn in E. rewrite app_length in E. cbn in E. lia.
  - exfalso. assert (I : In c_dq ([ascii_of_N 92; "u"%char] ++ h)) by (rewrite E; apply in_or_app; right; now left).
    destruct I as [I|[I|I]]; try discriminate. rewrite Forall_forall in H. apply H in I. unfold hexdig in I.
    repeat (destruct I as [I|I]; [discriminate|]). contradiction.
Qed.

Lemma split_concat (l : list str) : forall u c v, concat l = u ++ c :: v ->
  exists l1 p l2 u1 v1, l = l1 ++ p :: l2 /\ p = u1 ++ c :: v1 /\ u = concat l1 ++ u1.
Proof.
  induction l as [|p l IH]; intros u c v E; [destruct u; discriminate|]. cbn [concat] in E.
  destruct (app_eq_app _ _ _ _ E) as (w & [[Ep A]|[Eu A]]).
  - destruct w as [|x w].
    + cbn in A. rewrite app_nil_r in Ep. subst u. destruct (IH [] c v (eq_sym A)) as (l1 & p' & l2 & u1 & v1 & -> & -> & B).
      exists (p :: l1), (u1 ++ c :: v1), l2, u1, v1. split; auto. split; auto. cbn [concat].
      symmetry in B. apply app_eq_nil in B as [-> ->]. cbn. now rewrite !app_nil_r.
    + injection A as <- A. exists [], (u ++ c :: w), l, u, w. split; [now rewrite Ep|auto].
  - destruct (IH w c v A) as (l1 & p' & l2 & u1 & v1 & -> & -> & ->).
    exists (p :: l1), (u1 ++ c :: v1), l2, u1, v1. split; auto. split; auto. cbn [concat]. now rewrite Eu, app_assoc.
Qed.

Lemma string_ok b : json_string (lit """" ++ b ++ lit """") -> closes b -> body_ok b.
Proof.
  intros (l & E & F) C. split; [|exact C]. injection E as E. apply app_inj_tail in E as [-> _].
  intros u v E. destruct (split_concat _ _ _ _ E) as (l1 & p & l2 & u1 & v1 & -> & Ep & ->).
  apply Forall_app in F as [_ F]. inversion F as [|? ? J _]; subst.
  destruct (char_quote _ u1 v1 J eq_refl) as [u' ->]. exists (concat l1 ++ u'). now rewrite app_assoc.
Qed.

Definition number_char (c : ascii) : Prop := In c (lit "0123456789.+-eE").
Lemma digit_char_in c : is_digit c -> number_char c.
Proof. intros D. apply digit_list in D. unfold number_char. change (lit "0123456789.+-eE") with (lit "0123456789" ++ lit ".+-eE"). apply in_or_app. now left. Qed.
Lemma digits_chars s : Forall is_digit s -> Forall number_char s.
Proof. apply Forall_impl, digit_char_in. Qed.
Lemma lit_char c : In c (lit ".+-eE") -> number_char c.
Proof. intros I. unfold number_char. change (lit "0123456789.+-eE") with (lit "0123456789" ++ lit ".+-eE"). apply in_or_app. now right. Qed.

Lemma int_digits i : json_int i -> i <> [] /\ Forall is_digit i.
Proof.
  intros [->|(c & t & -> & D & _ & F)].
  - split; [discriminate|]. repeat constructor; cbn; lia.
  - split; [discriminate|]. now constructor.
Qed.
Lemma number_chars s : json_number s -> s <> [] /\ Forall number_char s.
Proof.
  intros (m & i & f & e & -> & M & I & F & E). apply int_digits in I as [N I]. split.
  { destruct M as [->| ->]; [|discriminate]. destruct i; [contradiction|discriminate]. }
  repeat rewrite Forall_app. repeat split.
  - destruct M as [->| ->]; [constructor|]. constructor; [apply lit_char; cbn; tauto|constructor].
  - now apply digits_chars.
  - destruct F as [->|(t & -> & _ & Ft)]; constructor; [apply lit_char; cbn; tauto|now apply digits_chars].
  - destruct E as [->|(c & p & t & -> & C & P & _ & Ft)]; constructor.
    + apply lit_char. destruct C as [->| ->]; cbn; tauto.
    + apply Forall_app. split; [|now apply digits_chars].
      destruct P as [->|[->| ->]]; [constructor| |]; (constructor; [apply lit_char; cbn; tauto|constructor]).
Qed.

Lemma number_char_ok c : number_char c -> (~ structural c /\ c <> c_com) /\ printable c /\ c <> c_bs.
Proof.
  intros I. assert (Q : (negb (structb c) && negb (Ascii.eqb c c_com) && printableb c && negb (Ascii.eqb c c_bs))%bool = true).
  { repeat (destruct I as [<-|I]; [reflexivity|]). contradiction. }
  apply andb_prop in Q as [Q B]. apply andb_prop in Q as [Q P]. apply andb_prop in Q as [S C].
  apply negb_true_iff in S, C, B. split; [split; [now apply structb_not|now apply eqb_not]|].
  split; [now apply printableb_ok|now apply eqb_not].
Qed.
Lemma number_token s : json_number s -> token_ok true s.
Proof.
  intros J. apply number_chars in J as [N F]. split; [|split; [exact N|]]; eapply Forall_impl; try exact F; intros c H; now apply number_char_ok in H.
Qed.

Lemma structure_of :
  (forall s v, says_value s v -> Forall closes (strings v) -> exists j, s = text_of j /\ text_ok true j /\ like j v)
  /\ (forall s vs, says_elements s vs -> Forall closes (flat_map strings vs) ->
        exists l, s = text_elems l /\ elems_ok true l /\ like_elems l vs /\ last_elem l = false)
  /\ (forall s ms, says_members s ms -> Forall closes (flat_map (fun kv => fst kv :: strings (snd kv)) ms) ->
        exists l, s = text_members l /\ members_ok true l /\ like_members l ms /\ last_member l = false).
Proof.
  apply says_ind.
  - intros _. exists (JTok (lit "false")). split; auto. split; [apply tokenb_ok; reflexivity|constructor].
  - intros _. exists (JTok (lit "null")). split; auto. split; [apply tokenb_ok; reflexivity|constructor].
  - intros _. exists (JTok (lit "true")). split; auto. split; [apply tokenb_ok; reflexivity|constructor].
  - intros s J _. exists (JTok s). split; auto. split; [now apply number_token|now constructor].
  - intros b J C. inversion C as [|? ? Cb _]; subst. exists (JStr b). split; auto. split; [now apply string_ok|constructor].
  - intros b B _. exists (JArr (ENil b)). split; auto. split; [now apply ws_blanks|repeat constructor].
  - intros s l _ IH C. destruct (IH C) as (e & -> & O & L & _). exists (JArr e). split; auto. split; auto. now constructor.
  - intros b B _. exists (JMap (MNil b)). split; auto. split; [now apply ws_blanks|repeat constructor].
  - intros s l _ IH C. destruct (IH C) as (e & -> & O & L & _). exists (JMap e). split; auto. split; auto. now constructor.
  - intros a s v b A _ IH B C. cbn [flat_map] in C. rewrite app_nil_r in C. destruct (IH C) as (j & -> & O & L).
    exists (ECons a j b false (ENil [])). cbn [text_elems opt_comma]. rewrite app_nil_r. split; auto. split.
    { cbn [elems_ok last_elem]. repeat split; auto using ws_blanks. constructor. }
    split; [repeat constructor; auto|reflexivity].
  - intros a s v b t l A _ IH B _ IHl C. cbn [flat_map] in C. apply Forall_app in C as [C1 C2].
    destruct (IH C1) as (j & -> & O & L). destruct (IHl C2) as (r & -> & Or & Lr & La).
    exists (ECons a j b true r). split; auto. split.
    { cbn [elems_ok]. split; [now apply ws_blanks|]. split; auto. split; [now apply ws_blanks|]. split; auto.
      cbn [comma_ok]. rewrite La. split; auto. discriminate. }
    split; [constructor; auto|reflexivity].
  - intros a k b c s v d A K B Cc _ IH D C. cbn [flat_map fst snd] in C. rewrite app_nil_r in C. inversion C as [|? ? Ck C']; subst.
    destruct (IH C') as (j & -> & O & L).
    exists (MCons a k b c j d false (MNil [])). cbn [text_members opt_comma]. rewrite app_nil_r. split; auto. split.
    { cbn [members_ok last_member]. split; [now apply ws_blanks|]. split; [now apply string_ok|]. split; [now apply ws_blanks|].
      split; [now apply ws_blanks|]. split; auto. split; [destruct (is_token j); now apply ws_blanks|]. split; [repeat split; auto|constructor]. }
    split; [repeat constructor; auto|reflexivity].
  - intros a k b c s v d t l A K B Cc _ IH D _ IHl C. cbn [flat_map fst snd] in C. inversion C as [|? ? Ck C']; subst.
    apply Forall_app in C' as [C1 C2]. destruct (IH C1) as (j & -> & O & L). destruct (IHl C2) as (r & -> & Or & Lr & La).
    exists (MCons a k b c j d true r). split; auto. split.
    { cbn [members_ok]. split; [now apply ws_blanks|]. split; [now apply string_ok|]. split; [now apply ws_blanks|].
      split; [now apply ws_blanks|]. split; auto. split; [destruct (is_token j); now apply ws_blanks|]. split; auto.
      cbn [comma_ok]. rewrite La. split; auto. discriminate. }
    split; [constructor; auto|reflexivity].
Qed.

(** ** Numbers *)
Lemma lexeme_fun u r q : lexeme u r -> lexeme u q -> r = q.
Proof. intros A B. apply lexeme_scalar in A, B. congruence. Qed.

Lemma fraction_pos u n q : fraction u n q -> (0 <= n /\ 0 < q)%Z.
Proof.
  intros (i & f & x & e & _ & Fi & Ff & _ & _ & -> & ->). split.
  - apply Z.mul_nonneg_nonneg; [apply decimal_nonneg; apply Forall_app; auto|apply Z.pow_nonneg; lia].
  - apply Z.pow_pos_nonneg; lia.
Qed.

Lemma int_numeral i : json_int i -> numeral i (decimal i).
Proof. intros J. apply int_digits in J as [N F]. repeat split; auto. Qed.

Lemma readable_lexeme s : readable s -> exists d, lexeme s (TokDoc d) /\ number_agrees s d.
Proof.
  intros [(neg & i & -> & J & Rg)|(neg & u & n & q & -> & Fr & O)].
  - pose proof (int_numeral i J) as N. pose proof (numeral_nonneg _ _ N) as Z0. destruct neg; cbn [sign app].
    + destruct (narrow_signed_narrowest (- decimal i)%Z) as (k & _ & K); [lia|].
      eexists. split; [exact (lx_neg i (decimal i) k N K)|]. left. exists true, i, k. auto.
    + destruct (narrow_unsigned_narrowest (decimal i)) as (k & _ & K); [lia|].
      eexists. split; [exact (lx_nat i (decimal i) k N K)|]. left. exists false, i, k. auto.
  - destruct (fraction_pos u n q Fr) as [N Q].
    pose proof (rounds_to_round F32 neg n q N Q) as A. pose proof (rounds_to_round F64 neg n q N Q) as B.
    destruct (round_opt F32 neg n q) as [f|].
    + eexists. split; [exact (lx_float32 neg u n q f Fr A)|]. right. exists neg, u, n, q, f, F32. auto 10.
    + destruct (round_opt F64 neg n q) as [f|].
      * eexists. split; [exact (lx_float64 neg u n q f Fr A B)|]. right. exists neg, u, n, q, f, F64. auto 10.
      * exfalso. destruct B as [[B _]|(_ & ? & ? & B & _)]; [contradiction|discriminate].
Qed.

Lemma occ_digits_min i : Forall is_digit i -> occurrences c_min i = 0.
Proof. intros F. apply occ_digits; auto using min_nd. Qed.
Lemma occ_digits_dot i : Forall is_digit i -> occurrences c_dot i = 0.
Proof. intros F. apply occ_digits; auto using dot_nd. Qed.
Lemma occ_cons c d u : occurrences c (d :: u) = (if Ascii.eqb c d then 1 else 0) + occurrences c u.
Proof. unfold occurrences. cbn [filter]. destruct (Ascii.eqb c d); reflexivity. Qed.

(** A minus sign that is not at the front is an error. *)
Lemma minus_inside neg a b : a <> [] -> occurrences c_min a = 0 ->
  sign_errs (sign neg ++ a ++ c_min :: b) <> [].
Proof.
  change c_min with "-"%char. intros N O. unfold sign_errs. rewrite occ_app, occ_app, O, occ_cons. change (Ascii.eqb "-"%char "-"%char) with true.
  destruct neg; cbn [sign app].
  - rewrite occ_cons. change (Ascii.eqb "-"%char "-"%char) with true. cbn. discriminate.
  - change (occurrences "-"%char []) with 0. cbn [Nat.add]. destruct (occurrences "-"%char b); cbn; [|discriminate].
    destruct a as [|c a]; [contradiction|]. rewrite occ_cons in O. destruct (Ascii.eqb "-"%char c) eqn:E; [discriminate|].
    cbn [app]. rewrite Ascii.eqb_sym, E. discriminate.
Qed.

Lemma number_lexeme s : json_number s -> small_exponent s ->
  readable s \/ exists e, e <> [] /\ lexeme s (TokErr e).
Proof.
  intros (m & i & f & e & -> & M & I & F & E) Sm.
  assert (exists neg, m = sign neg) as [neg ->] by (destruct M as [->| ->]; [now exists false|now exists true]). clear M.
  destruct (int_digits i I) as [Ni Di]. pose proof (int_numeral i I) as Nm.
  assert (Of : occurrences c_min f = 0).
  { destruct F as [->|(t & -> & _ & Ft)]; [reflexivity|]. rewrite occ_cons. cbn. now apply occ_digits_min. }
  assert (Nif : i ++ f <> []) by (destruct i; [contradiction|discriminate]).
  destruct E as [->|(c & p & t & -> & Hc & Hp & Nt & Dt)].
  - rewrite app_nil_r in *. destruct F as [->|(t & -> & Nt & Dt)].
    + rewrite app_nil_r in *. destruct neg.
      * destruct (Z_le_gt_dec (decimal i) (2 ^ 63)) as [L|G]; [left; left; exists true, i; auto|].
        right. exists [EIntSyn]. split; [discriminate|]. apply (lx_neg_big i (decimal i)); auto. lia.
      * destruct (Z_lt_ge_dec (decimal i) (2 ^ 64)) as [L|G]; [left; left; exists false, i; auto|].
        right. exists [EUintSyn]. split; [discriminate|]. apply (lx_nat_big i (decimal i)); auto. lia.
    + assert (Fr : fraction (i ++ "."%char :: t) (decimal (i ++ t) * 10 ^ 0) (10 ^ Z.of_nat (length t))).
      { exists i, t, [], 0%Z. rewrite app_nil_r. repeat split; auto. 2: now left. destruct i; [contradiction|discriminate]. }
      destruct (fraction_pos _ _ _ Fr) as [N Q].
      pose proof (rounds_to_round F64 neg _ _ N Q) as B. destruct B as [[O B]|(O & _)].
      * right. exists [EFloatSyn]. split; [discriminate|]. eapply lx_float_big; [exact Fr|]. left. auto.
      * left. right. exists neg, (i ++ "."%char :: t). eexists _, _. split; [reflexivity|]. split; [exact Fr|exact O].
  - assert (Sd : (decimal t < 10000)%Z).
    { apply (Sm (sign neg ++ i ++ f) c p t); auto. now rewrite <- !app_assoc. }
    destruct (list_eq_dec ascii_dec p (lit "-")) as [->|Np].
    + right. exists (sign_errs (sign neg ++ i ++ f ++ c :: lit "-" ++ t) ++ point_errs (sign neg ++ i ++ f ++ c :: lit "-" ++ t)).
      assert (Q : sign_errs (sign neg ++ i ++ f ++ c :: lit "-" ++ t) <> []).
      { replace (i ++ f ++ c :: lit "-" ++ t) with ((i ++ f ++ [c]) ++ c_min :: t) by (now rewrite <- !app_assoc).
        apply minus_inside; [destruct i; [contradiction|discriminate]|].
        rewrite !occ_app, (occ_digits_min i Di), Of. destruct Hc as [->| ->]; reflexivity. }
      assert (Q' : sign_errs (sign neg ++ i ++ f ++ c :: lit "-" ++ t) ++ point_errs (sign neg ++ i ++ f ++ c :: lit "-" ++ t) <> []).
      { intros Z. apply app_eq_nil in Z as [Z _]. contradiction. }
      split; [exact Q'|]. now apply lx_signs.
    + assert (Hp' : p = [] \/ p = ["+"%char]) by (destruct Hp as [?|[?|?]]; [now left|now right|contradiction]).
      destruct F as [->|(g & -> & Ng & Dg)].
      * assert (Om : occurrences c_min (i ++ c :: p ++ t) = 0).
        { rewrite occ_app, occ_cons, occ_app, (occ_digits_min i Di), (occ_digits_min t Dt). destruct Hc as [->| ->], Hp' as [->| ->]; reflexivity. }
        assert (Od : occurrences c_dot (i ++ c :: p ++ t) = 0).
        { rewrite occ_app, occ_cons, occ_app, (occ_digits_dot i Di), (occ_digits_dot t Dt). destruct Hc as [->| ->], Hp' as [->| ->]; reflexivity. }
        assert (Nd : ~ Forall is_digit (i ++ c :: p ++ t)).
        { intros A. apply Forall_app in A as [_ A]. inversion A as [|? ? A1 _]; subst. destruct Hc as [->| ->]; unfold is_digit, digit in A1; cbn in A1; lia. }
        right. cbn [app]. destruct neg; cbn [sign app].
        -- exists [EIntSyn]. split; [discriminate|]. apply lx_not_neg; auto.
        -- exists [EUintSyn]. split; [discriminate|]. apply lx_not_nat; auto.
           { destruct i; [contradiction|discriminate]. }
           { intros K. destruct i as [|x i]; [contradiction|]. inversion Di as [|? ? D1 _]; subst.
             destruct K as [K|[K|K]]; injection K as -> _; unfold is_digit, digit in D1; cbn in D1; lia. }
      * assert (Fr : fraction (i ++ "."%char :: g ++ c :: p ++ t) (decimal (i ++ g) * 10 ^ decimal t) (10 ^ Z.of_nat (length g))).
        { exists i, g, (c :: p ++ t), (decimal t). repeat split; auto. { destruct i; [contradiction|discriminate]. }
          right. exists c, p, t. repeat split; auto. }
        destruct (fraction_pos _ _ _ Fr) as [N Q].
        pose proof (rounds_to_round F64 neg _ _ N Q) as B. cbn [app] in *. destruct B as [[O B]|(O & _)].
        -- right. exists [EFloatSyn]. split; [discriminate|]. eapply lx_float_big; [exact Fr|]. left. auto.
        -- left. right. exists neg, (i ++ "."%char :: g ++ c :: p ++ t). eexists _, _. split; [reflexivity|]. split; [exact Fr|exact O].
Qed.

(** ** Values *)
Lemma like_tokens :
  (forall j v, like j v -> forall t, In t (tokens j) -> keyword t \/ json_number t /\ In t (numbers v))
  /\ (forall l vs, like_elems l vs -> forall t, In t (tokens_elems l) -> keyword t \/ json_number t /\ In t (flat_map numbers vs))
  /\ (forall l ms, like_members l ms -> forall t, In t (tokens_members l) -> keyword t \/ json_number t /\ In t (flat_map (fun kv => numbers (snd kv)) ms)).
Proof.
  apply like_mutind; cbn [tokens tokens_elems tokens_members numbers flat_map snd].
  - intros t [<-|[]]. left. right. now left.
  - intros t [<-|[]]. left. right. now right.
  - intros t [<-|[]]. left. now left.
  - intros s J t [<-|[]]. right. split; auto. now left.
  - intros b t [].
  - auto.
  - auto.
  - intros b t [].
  - intros pre j v post c r vs L IH Ll IHl t I. apply in_app_or in I as [I|I].
    + destruct (IH t I) as [K|[J Q]]; [now left|right; split; auto; apply in_or_app; now left].
    + destruct (IHl t I) as [K|[J Q]]; [now left|right; split; auto; apply in_or_app; now right].
  - intros b t [].
  - intros pre k mid pre2 j v post c r ms L IH Ll IHl t I. apply in_app_or in I as [I|I].
    + destruct (IH t I) as [K|[J Q]]; [now left|right; split; auto; apply in_or_app; now left].
    + destruct (IHl t I) as [K|[J Q]]; [now left|right; split; auto; apply in_or_app; now right].
Qed.
Lemma number_tokens :
  (forall j v, like j v -> incl (numbers v) (tokens j))
  /\ (forall l vs, like_elems l vs -> incl (flat_map numbers vs) (tokens_elems l))
  /\ (forall l ms, like_members l ms -> incl (flat_map (fun kv => numbers (snd kv)) ms) (tokens_members l)).
Proof.
  apply like_mutind; cbn [tokens tokens_elems tokens_members numbers flat_map snd]; intros; auto using incl_refl, incl_nil_l.
  - apply incl_app; [now apply incl_appl|now apply incl_appr].
  - apply incl_app; [now apply incl_appl|now apply incl_appr].
Qed.

Lemma like_numbers :
  (forall j v, like j v -> Forall json_number (numbers v))
  /\ (forall l vs, like_elems l vs -> Forall json_number (flat_map numbers vs))
  /\ (forall l ms, like_members l ms -> Forall json_number (flat_map (fun kv => numbers (snd kv)) ms)).
Proof.
  apply like_mutind; cbn [numbers flat_map snd]; intros; auto; apply Forall_app; auto.
Qed.

Lemma printable_squeeze t : Forall (fun c => printable c /\ c <> c_bs) t -> squeeze t = t /\ Forall plain t.
Proof.
  intros F. split; [now apply squeeze_token|]. eapply Forall_impl; [|exact F]. intros c [H _]. now right.
Qed.
Lemma number_plain s : json_number s -> squeeze s = s /\ Forall plain s.
Proof. intros J. apply number_token in J as (_ & _ & F). now apply printable_squeeze. Qed.
Lemma keyword_plain s : keyword s -> squeeze s = s /\ Forall plain s.
Proof. intros K. destruct K as [->|[->| ->]]; apply printable_squeeze; repeat constructor; try (cbn; lia); discriminate. Qed.

Lemma like_fine l ms : like_members l ms -> plain_tokens l.
Proof.
  intros L. apply Forall_forall. intros t I. destruct (proj2 (proj2 like_tokens) l ms L t I) as [K|[J _]];
    [now apply keyword_plain|now apply number_plain].
Qed.

Lemma lexeme_T0 t r : squeeze t = t -> Forall plain t -> lexeme t r -> T0 t = r.
Proof. intros S P L. apply means_T0. split; auto. now rewrite S. Qed.

(** Accepted exactly when the numbers are readable. *)
Lemma rfc_accepts X h s ms :
  reachable X h -> says_value s (VObject ms) -> Forall closes (strings (VObject ms)) -> Forall small_exponent (numbers (VObject ms)) ->
  ((exists d, parses X h s (GVal d)) <-> Forall readable (numbers (VObject ms))).
Proof.
  intros R S C Sm. destruct (proj1 structure_of _ _ S C) as (j & -> & O & L). inversion L as [| | | | | |l ? Lm]; subst.
  assert (OK : members_ok false l) by (now apply strict_lenient).
  pose proof (parse_any X h l R OK) as P. pose proof (outcome_errs T0 l) as Oe.
  assert (E : scalar_errs T0 l = [] <-> Forall readable (numbers (VObject ms))).
  { split.
    - intros E. apply Forall_forall. intros t I.
      assert (It : In t (tokens_members l)) by (now apply (proj2 (proj2 number_tokens) l ms Lm)).
      assert (J : json_number t) by (pose proof (proj2 (proj2 like_numbers) l ms Lm) as A; rewrite Forall_forall in A; now apply A).
      rewrite Forall_forall in Sm. destruct (number_lexeme t J (Sm t I)) as [Rd|(e & Ne & Lx)]; auto.
      exfalso. destruct (number_plain t J) as [Sq Pl]. pose proof (lexeme_T0 t _ Sq Pl Lx) as T.
      destruct e as [|x e]; [contradiction|]. assert (In x []) as []. rewrite <- E. unfold scalar_errs. apply in_flat_map.
      exists t. split; auto. rewrite T. now left.
    - intros F. unfold scalar_errs. rewrite Forall_forall in F.
      assert (Q : forall t, In t (tokens_members l) -> tok_errs (T0 t) = []).
      { intros t I. destruct (proj2 (proj2 like_tokens) l ms Lm t I) as [K|[J In]].
        - destruct (keyword_plain t K) as [Sq Pl].
          destruct K as [->|[->| ->]]; [rewrite (lexeme_T0 _ _ Sq Pl lx_true)|rewrite (lexeme_T0 _ _ Sq Pl lx_false)|rewrite (lexeme_T0 _ _ Sq Pl lx_null)]; reflexivity.
        - destruct (readable_lexeme t (F t In)) as (d & Lx & _). destruct (number_plain t J) as [Sq Pl].
          now rewrite (lexeme_T0 t _ Sq Pl Lx). }
      induction (tokens_members l) as [|t ts IH]; auto. cbn [flat_map]. rewrite (Q t) by now left. apply IH. intros t' I. apply Q. now right. }
  rewrite <- E. split.
  - intros [d Pd]. destruct (outcome T0 l) as [d'|e]; [exact Oe|]. exfalso. destruct P as (_ & h' & P & _). destruct Pd as (h2 & m & Pd & _). congruence.
  - intros Z. destruct (outcome T0 l) as [d'|e]; [eauto|]. destruct Oe as [-> Ne]. contradiction.
Qed.

(** ** Strings *)
Lemma latin1_cons c b : (N_of_ascii c < 128)%N -> latin1 (c :: b) = c :: latin1 b.
Proof. intros L. change (latin1 (c :: b)) with (utf8_of_byte c ++ latin1 b). unfold utf8_of_byte. apply N.ltb_lt in L. now rewrite L. Qed.

Lemma unescape_plain c s : c <> c_bs -> unescape (c :: s) = c :: unescape s.
Proof. intros N. cbn [unescape]. destruct s as [|d s]; auto. destruct (Ascii.eqb_spec c c_bs); [contradiction|reflexivity]. Qed.

Lemma simple_decodes b : simple b -> exists t, decodes b t /\ unescape (latin1 b) = t.
Proof.
  induction 1 as [|c b L N1 N2 S (t & D & IH)|b S (t & D & IH)].
  - exists []. split; [constructor|reflexivity].
  - exists (c :: t). split.
    + assert (E : utf8 (N_of_ascii c) = [c]) by (rewrite utf8_ascii by lia; now rewrite ascii_N_embedding).
      change (c :: b) with ([c] ++ b). change (c :: t) with ([c] ++ t). rewrite <- E. constructor; auto.
      * left. lia.
      * lia.
      * intros Q. apply N1. rewrite <- (ascii_N_embedding c), Q. reflexivity.
      * intros Q. apply N2. rewrite <- (ascii_N_embedding c), Q. reflexivity.
    + rewrite latin1_cons by lia. rewrite unescape_plain by auto. now rewrite IH.
  - exists (c_dq :: t). split; [apply (dc_escape c_dq 34); [now left|auto]|].
    rewrite latin1_cons by (cbn; lia). rewrite latin1_cons by (cbn; lia). cbn. now rewrite IH.
Qed.
Lemma simple_container b : simple b -> ~ In c_dq b -> unescape (latin1 b) = latin1 b.
Proof.
  induction 1 as [|c b L N1 N2 S IH|b S IH]; auto; intros N.
  - rewrite latin1_cons by lia. rewrite unescape_plain by auto. rewrite IH; auto. intros I. apply N. now right.
  - exfalso. apply N. right. now left.
Qed.
Lemma simple_closes b : simple b -> closes b.
Proof.
  unfold closes. induction 1 as [|c b L N1 N2 S IH|b S IH]; intros u E.
  - destruct u; discriminate.
  - destruct u as [|x u]; [injection E as -> _; contradiction|]. injection E as _ E. eapply IH, E.
  - destruct u as [|x [|y u]]; [discriminate|injection E as _ E _; discriminate|]. injection E as _ _ E. eapply IH, E.
Qed.

(** ** Agreement *)
Definition unquoted (k : str) : Prop := ~ In c_dq k.

Lemma like_agrees :
  (forall j v, like j v -> Forall simple (strings v) -> Forall readable (numbers v) -> Forall unquoted (container_keys v) ->
     exists d, value_of T0 j = (Some d, []) /\ agrees v d)
  /\ (forall l vs, like_elems l vs ->
     Forall simple (flat_map strings vs) -> Forall readable (flat_map numbers vs) -> Forall unquoted (flat_map container_keys vs) ->
     exists ds, elems_of T0 l = (ds, []) /\ Forall2 agrees vs ds)
  /\ (forall l ms, like_members l ms ->
     Forall simple (flat_map (fun kv => fst kv :: strings (snd kv)) ms) -> Forall readable (flat_map (fun kv => numbers (snd kv)) ms) ->
     Forall unquoted (flat_map (fun kv => (if container (snd kv) then [fst kv] else []) ++ container_keys (snd kv)) ms) ->
     exists kvs ml, (forall acc, members_of T0 acc l = (sets acc ml, []))
       /\ Forall2 (fun m kv => decodes (fst m) (fst kv) /\ snd m = snd kv) ms kvs
       /\ Forall2 (fun kv kd => fst kv = fst kd /\ agrees (snd kv) (snd kd)) kvs ml).
Proof.
  apply like_mutind.
  - intros _ _ _. eexists. split; [|constructor]. now rewrite value_of_JTok, (means_T0 _ _ (conj (proj2 (keyword_plain _ (or_intror (or_introl eq_refl)))) lx_false)).
  - intros _ _ _. eexists. split; [|constructor]. now rewrite value_of_JTok, (means_T0 _ _ (conj (proj2 (keyword_plain _ (or_intror (or_intror eq_refl)))) lx_null)).
  - intros _ _ _. eexists. split; [|constructor]. now rewrite value_of_JTok, (means_T0 _ _ (conj (proj2 (keyword_plain _ (or_introl eq_refl))) lx_true)).
  - intros s J _ R _. inversion R as [|? ? Rs _]; subst. destruct (readable_lexeme s Rs) as (d & L & A). destruct (number_plain s J) as [Sq Pl].
    exists d. split; [|now constructor]. now rewrite value_of_JTok, (lexeme_T0 s _ Sq Pl L).
  - intros b W _ _. inversion W as [|? ? S _]; subst. destruct (simple_decodes b S) as (t & Dc & Q). exists (DScal (SStr t)). split; [|now constructor].
    cbn [value_of]. now rewrite Q.
  - intros l vs _ IH W R U. destruct (IH W R U) as (ds & E & A). exists (DArr ds). split; [|now constructor]. now rewrite value_of_JArr, E.
  - intros l ms _ IH W R U. destruct (IH W R U) as (kvs & ml & E & A & B). exists (DMap (sets [] ml)). split; [now rewrite value_of_JMap, E|].
    apply ag_object with (kvs := kvs); auto.
    + change (map fst (sets [] ml)) with (dict_keys (sets [] ml)). rewrite sets_nil_keys. f_equal.
      clear - B. induction B as [|? ? ? ? [Q _] _ IH]; cbn; congruence.
    + intros k v Q. rewrite sets_get. clear - B Q. revert v Q. induction B as [|[k1 v1] [k2 d2] kvs ml [Q1 Q2] B IH]; intros v Q; [discriminate|].
      cbn [last_of fst snd] in *. subst k2. destruct (last_of k kvs) as [v'|] eqn:E.
      * injection Q as <-. destruct (IH _ eq_refl) as (d & Ed & A). exists d. destruct (last_of k ml); [auto|discriminate].
      * assert (last_of k ml = None) as ->.
        { clear - B E. induction B as [|[k1 v1] [k2 d2] kvs ml [Q1 _] B IH]; auto. cbn [last_of fst] in *. subst k2.
          destruct (last_of k kvs); [discriminate|]. rewrite IH by auto. now destruct (str_eqb k1 k). }
        destruct (str_eqb k1 k); [|discriminate]. injection Q as <-. eauto.
  - intros b _ _ _. exists []. split; [reflexivity|constructor].
  - intros pre j v post c r vs _ IH _ IHl W R U. cbn [flat_map] in *. apply Forall_app in W as [W1 W2], R as [R1 R2], U as [U1 U2].
    destruct (IH W1 R1 U1) as (d & E & A). destruct (IHl W2 R2 U2) as (ds & El & Al). exists (d :: ds). rewrite elems_of_ECons, E, El. auto.
  - intros b _ _ _. exists [], []. repeat split; constructor.
  - intros pre k mid pre2 j v post c r ms L IH _ IHl W R U. cbn [flat_map fst snd app] in *. inversion W as [|? ? St W']; subst. destruct (simple_decodes k St) as (t & Dc & Q).
    apply Forall_app in W' as [W1 W2], R as [R1 R2], U as [U0 U2]. apply Forall_app in U0 as [U0 U1].
    destruct (IH W1 R1 U1) as (d & E & A). destruct (IHl W2 R2 U2) as (kvs & ml & El & Al & Bl).
    exists ((t, v) :: kvs), ((t, d) :: ml). split; [|split; constructor; auto].
    intros acc. rewrite members_of_MCons, E. assert (key_of k j = t) as ->.
    { inversion L; subst; cbn [key_of container] in *; try reflexivity;
        inversion U0; subst; symmetry; now apply simple_container. }
    now rewrite El.
Qed.

Lemma rfc_conforms X h s ms :
  reachable X h -> says_value s (VObject ms) -> Forall simple (strings (VObject ms)) ->
  Forall readable (numbers (VObject ms)) -> (forall k, In k (container_keys (VObject ms)) -> ~ In c_dq k) ->
  exists d, parses X h s (GVal d) /\ agrees (VObject ms) d.
Proof.
  intros R S W Rd U.
  assert (C : Forall closes (strings (VObject ms))) by (eapply Forall_impl; [|exact W]; intros b; apply simple_closes).
  destruct (proj1 structure_of _ _ S C) as (j & -> & O & L). inversion L as [| | | | | |l ? Lm]; subst.
  assert (OK : members_ok false l) by (now apply strict_lenient).
  destruct (proj1 like_agrees _ _ L W Rd) as (d & E & A); [now apply Forall_forall|].
  exists d. split; auto. pose proof (parse_any X h l R OK) as P. unfold outcome in P. rewrite value_of_JMap in E.
  destruct (members_of T0 [] l) as [es e]. injection E as <- ->. exact P.
Qed.

(** ** Objects only *)
Lemma ws_no_brace s c : ws s -> In c s -> c <> c_lb /\ c <> c_rb.
Proof. intros W I. unfold ws in W. rewrite Forall_forall in W. apply W in I. split; intros ->; cbn in I; intuition discriminate. Qed.

Lemma rfc_objects X h s m h' :
  reachable X h -> json_text s -> Parse X s h = Ok (GVal m, h') -> exists ms, says_value s (VObject ms).
Proof.
  intros R (a & v & b & -> & A & J & B) P.
  assert (Q : (exists t, a ++ v ++ b = c_lb :: t) /\ exists t, a ++ v ++ b = t ++ [c_rb]).
  { assert (G : ~ (a ++ v ++ b = [] \/ (forall t, a ++ v ++ b <> c_lb :: t) \/ (forall t, a ++ v ++ b <> t ++ [c_rb]))).
    { intros G. destruct (parse_wrapping X h _ R G) as (? & ? & ? & E & _). congruence. }
    split.
    - destruct (a ++ v ++ b) as [|c s] eqn:E; [exfalso; apply G; now left|].
      destruct (Ascii.eqb_spec c c_lb) as [->|N]; [eauto|]. exfalso. apply G. right. left. intros t Q. injection Q as Q _. contradiction.
    - destruct (a ++ v ++ b) as [|c s _] eqn:E using rev_ind; [exfalso; apply G; now left|].
      destruct (Ascii.eqb_spec c c_rb) as [->|N]; [eauto|]. exfalso. apply G. right. right. intros t Q. apply app_inj_tail in Q as [_ Q]. contradiction. }
  destruct Q as [[t Q1] [t2 Q2]].
  assert (a = []) as ->.
  { destruct a as [|c a]; auto. injection Q1 as -> _. destruct (ws_no_brace _ c_lb A) as [N _]; [now left|contradiction]. }
  assert (b = []) as ->.
  { destruct b as [|c b _] using rev_ind; auto. cbn [app] in Q2. rewrite app_assoc in Q2. apply app_inj_tail in Q2 as [_ ->].
    destruct (ws_no_brace _ c_rb B) as [_ N]; [apply in_or_app; right; now left|contradiction]. }
  cbn [app] in *. rewrite app_nil_r in *. destruct (proj1 grammar_says _ J) as [x S]. clear - S Q1.
  inversion S; subst; try discriminate; try (rewrite H0; eexists; exact S).
  exfalso. destruct (number_chars _ H) as [_ F]. inversion F as [|? ? C _]; subst.
  apply number_char_ok in C as [[C _] _]. apply C. unfold structural. cbn. tauto.
Qed.
