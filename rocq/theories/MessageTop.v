(** * The texts of Parse's errors (proofs for C79) *)
From Coq Require Import Ascii String List NArith ZArith Bool Lia.
From Verif Require Import GoStr GoNum GoFloat Heap Common ValueModel ArrayModel MapModel JsonModel ParserModel
  StrLemmas SpecDict SpecNum NumLemmas SpecFloat FloatFacts SpecDoc SpecText SpecToken SpecParse SpecPanic SpecWorld Inv World Reach
  TreeParser TextRun TokenFacts ParseTop ParseFacts TidyFacts ParseMore PanicFacts OriginFacts SpecScalar ScalarFacts ScalarRun ScalarTop
  SpecEvery EveryFacts EveryTop ParseWorld MessageModel SpecMessage MessageRefine MessageFacts.
Import ListNotations.
Local Arguments space_byte : simpl never.

(** ** One step *)
Notation RT := (reading_texts val_says).

Lemma stk_len l : forall o, stk_rel l o -> length l = length o.
Proof. induction l as [|[f a] l IH]; intros [|[c n] o] H; try contradiction; auto. cbn. f_equal. apply IH, H. Qed.

Lemma value_says_step f a k tk v stk : key_fit f k tk ->
  match value_text_says (is_fmap f) tk (utf8_str v) with
  | Ok ms => ms = val_says v
  | Panic => t_value tk (utf8_str v) ((f, a) :: stk) = Panic
  | _ => False
  end.
Proof.
  intros K. unfold t_value, value_text, value_text_says. cbv zeta.
  assert (Kt : exists k', (if is_fmap f then
            if is_quoted (clean tk) then
              match slice_inner (clean tk) with Some k' => Ok (k', []) | None => Panic end
            else Ok (clean tk, [EKeyQuote])
          else Ok (clean tk, [])) = Ok (k', @nil err)
    /\ (if is_fmap f then
            if is_quoted (clean tk) then
              match slice_inner (clean tk) with Some _ => Ok [] | None => Panic end
            else Ok [lit "error: key does not start with  "" and/or end with "" key: '" ++ clean tk ++ lit "'"]
          else Ok []) = Ok []).
  { unfold key_fit in K. destruct (is_fmap f); [|exists (clean tk); split; reflexivity].
    destruct (K eq_refl) as [-> B]. exists (unescape (latin1 k)).
    rewrite (clean_quoted (latin1 k)) by now apply latin1_last.
    rewrite is_quoted_quoted, slice_quoted, unescape_unesc. split; reflexivity. }
  destruct Kt as (k' & -> & ->). cbn [rbind fst snd app].
  rewrite <- latin1_utf8, clean_latin1. unfold val_says. cbv zeta.
  destruct (contains_byte c_dq (unescape (latin1 (strip v)))); [|reflexivity].
  destruct (is_quoted (unescape (latin1 (strip v)))); [|reflexivity].
  destruct (slice_inner (unescape (latin1 (strip v)))); reflexivity.
Qed.

Lemma end_text pop prev st name w v st' : sim prev st name w -> valueish (t_mode st) -> t_tv st = utf8_str v ->
  t_end pop st = Ok st' ->
  t_end_says st = Ok (match length (w_open w) with 0 => [say_no_list] | _ => val_says v end).
Proof.
  intros [S R E K] M Tv H. apply key_value in K; auto. rewrite <- (stk_len _ _ S). unfold t_end_says, t_end in *.
  destruct (t_stk st) as [|[f a] t]; [reflexivity|]. cbn [length]. rewrite Tv in *.
  pose proof (value_says_step f a (w_name w) (t_tk st) v t K) as V.
  destruct (value_text_says _ _ _) as [ms| | |]; try contradiction; [now subst|]. rewrite V in H. discriminate.
Qed.

Lemma attach_text prev st name w : sim prev st name w -> valueish (t_mode st) -> t_attach_says st = Ok [].
Proof.
  intros [S R E K] M. apply key_value in K; auto. unfold t_attach_says. destruct (t_stk st) as [|[f a] t]; auto.
  unfold key_fit in K. destruct (is_fmap f); auto. destruct (K eq_refl) as [-> _]. unfold unquote_key_says.
  now rewrite is_quoted_quoted, slice_quoted.
Qed.

Lemma mode_text q b prev st r name w st' :
  follows st r -> sim prev st name w -> (q = true -> b = c_dq) ->
  (q = true -> t_ps st = false -> ~ valueish (t_mode st)) -> t_step_mode q b st = Ok st' ->
  t_mode_says b st = Ok (RT (length (w_open w)) (report q (t_ps st) b r name)).
Proof.
  intros F Sm Q A H. pose proof F as [P _ Tv _ _]. unfold t_step_mode in H. unfold t_mode_says, report. rewrite P.
  destruct (t_mode st) eqn:M; cbn [mode_place].
  - destruct (Ascii.eqb b c_rb); reflexivity.
  - destruct q; reflexivity.
  - reflexivity.
  - assert (QQ : q && negb (t_ps st) = false).
    { destruct q; auto. destruct (t_ps st); auto. exfalso. apply A; auto. now left. }
    rewrite QQ. cbn [andb t_ps t_set_mode] in *. destruct (t_ps st); [reflexivity|]. cbn [negb] in *.
    assert (Sv : sim prev (t_set_mode MValue st) name w).
    { destruct Sm as [S R E K]. split; auto. unfold key_rel in *. cbn [t_mode t_set_mode]. now rewrite M in K. }
    assert (Vm : valueish (t_mode st)) by (rewrite M; now left).
    assert (End : forall pop, t_end pop (t_set_mode MValue st) = Ok st' ->
      t_end_says st = Ok (match length (w_open w) with 0 => [say_no_list] | _ => val_says (r_value r) end)).
    { intros pop Hp. apply (end_text pop prev (t_set_mode MValue st) name w (r_value r) st') in Hp; auto. now left. }
    rewrite (attach_text _ _ _ _ Sm Vm).
    destruct (Ascii.eqb b c_lb); [reflexivity|].
    destruct (Ascii.eqb b c_rb) eqn:Erb.
    { assert (Ascii.eqb b c_ls = false) as -> by (apply Ascii.eqb_eq in Erb; subst; reflexivity). cbn [orb].
      rewrite (End true H). cbn [reading_texts]. now rewrite app_nil_r. }
    destruct (Ascii.eqb b c_ls); [reflexivity|]. cbn [orb].
    destruct (Ascii.eqb b c_rs); [cbn [orb]; rewrite (End true H); cbn [reading_texts]; now rewrite app_nil_r|]. cbn [orb].
    destruct (Ascii.eqb b c_com); [rewrite (End false H); cbn [reading_texts]; now rewrite app_nil_r|]. reflexivity.
  - assert (QQ : q && negb (t_ps st) = false).
    { destruct q; auto. destruct (t_ps st); auto. exfalso. apply A; auto. now right. }
    rewrite QQ. cbn [andb t_ps t_set_mode] in *.
    destruct (Ascii.eqb b c_sp || Ascii.eqb b c_nl || Ascii.eqb b c_cr || Ascii.eqb b c_bs || Ascii.eqb b c_tab) eqn:Bl.
    { assert (Nb : Ascii.eqb b c_lb = false /\ Ascii.eqb b c_rb = false /\ Ascii.eqb b c_ls = false
        /\ Ascii.eqb b c_rs = false /\ Ascii.eqb b c_com = false).
      { repeat (apply orb_true_iff in Bl as [Bl|Bl]; [|apply Ascii.eqb_eq in Bl; subst; repeat split]).
        apply Ascii.eqb_eq in Bl; subst; repeat split. }
      destruct Nb as (-> & -> & -> & -> & ->). cbn [orb]. destruct (t_ps st); reflexivity. }
    destruct (t_ps st); [reflexivity|]. cbn [negb] in *.
    assert (Sv : sim prev (t_set_mode MValue st) name w).
    { destruct Sm as [S R E K]. split; auto. unfold key_rel in *. cbn [t_mode t_set_mode]. now rewrite M in K. }
    assert (Vm : valueish (t_mode st)) by (rewrite M; now right).
    assert (End : forall pop, t_end pop (t_set_mode MValue st) = Ok st' ->
      t_end_says st = Ok (match length (w_open w) with 0 => [say_no_list] | _ => val_says (r_value r) end)).
    { intros pop Hp. apply (end_text pop prev (t_set_mode MValue st) name w (r_value r) st') in Hp; auto. now left. }
    rewrite (attach_text _ _ _ _ Sm Vm).
    destruct (Ascii.eqb b c_lb); [reflexivity|].
    destruct (Ascii.eqb b c_rb) eqn:Erb.
    { assert (Ascii.eqb b c_ls = false) as -> by (apply Ascii.eqb_eq in Erb; subst; reflexivity). cbn [orb].
      rewrite (End true H). cbn [reading_texts]. now rewrite app_nil_r. }
    destruct (Ascii.eqb b c_ls); [reflexivity|]. cbn [orb].
    destruct (Ascii.eqb b c_rs); [cbn [orb]; rewrite (End true H); cbn [reading_texts]; now rewrite app_nil_r|]. cbn [orb].
    destruct (Ascii.eqb b c_com); [rewrite (End false H); cbn [reading_texts]; now rewrite app_nil_r|]. reflexivity.
Qed.

Lemma mode_says_cnt b ps c c' st : t_mode_says b (t_set_ps ps c st) = t_mode_says b (t_set_ps ps c' st).
Proof. reflexivity. Qed.

Lemma step_text prev b st r name w st' : follows st r -> sim prev st name w -> t_step prev b st = Ok st' ->
  let q := Ascii.eqb b c_dq && match prev with Some p => negb (Ascii.eqb p c_bs) | None => true end in
  let quoted := if q then negb (r_quoted r) else r_quoted r in
  t_step_says prev b st = Ok (RT (length (w_open w)) (report q quoted b r name)).
Proof.
  intros F Sm H q quoted. unfold t_step in H. fold q in H. unfold t_step_says. fold q. cbv zeta.
  assert (Q : q = true -> b = c_dq).
  { unfold q. rewrite andb_true_iff, Ascii.eqb_eq. tauto. }
  unfold quoted in *. clear quoted. clearbody q. pose proof F as [P U Tv O K]. rewrite U in *.
  assert (S : forall ps c, follows (t_set_ps ps c st) (Reading (r_place r) ps (r_value r) (r_open r)))
    by (intros ps c; split; cbn; auto).
  assert (SS : forall ps c, sim prev (t_set_ps ps c st) name w).
  { intros. destruct Sm as [A B C D]. split; auto. }
  destruct (t_ps st) eqn:Ps; cbn [negb] in *.
  - destruct q.
    + assert (D : (valueish (t_mode st) /\ t_end false (t_add_val (utf8_of_byte b) (t_set_ps false (count_close (t_cnt st)) st)) = Ok st')
          \/ ~ valueish (t_mode st)).
      { cbn [t_mode t_set_ps] in H. unfold valueish. destruct (t_mode st); auto; right; intros [?|?]; discriminate. }
      destruct D as [[M H']|M].
      * assert (Er : report true false b r name = [Holds (r_value r ++ [b])]).
        { unfold report. rewrite P. destruct M as [M|M]; rewrite M; reflexivity. }
        rewrite Er. cbn [reading_texts]. rewrite app_nil_r.
        assert (G : t_end_says (t_add_val (utf8_of_byte b) (t_set_ps false (count_close (t_cnt st)) st))
          = Ok (match length (w_open w) with 0 => [say_no_list] | _ => val_says (r_value r ++ [b]) end)).
        { eapply (end_text false prev _ name w); eauto.
          - destruct (SS false (count_close (t_cnt st))) as [A B C D]. split; auto.
          - cbn [t_tv t_add_val t_set_ps]. rewrite Tv. apply utf8_add. }
        rewrite <- G. destruct M as [M|M]; rewrite M; reflexivity.
      * assert (Er : RT (length (w_open w)) (report true false b r name) = []).
        { rewrite (Q eq_refl). unfold report. rewrite P. destruct (t_mode st); try reflexivity; exfalso; apply M; unfold valueish; auto. }
        rewrite Er. destruct (t_mode st); try reflexivity; exfalso; apply M; unfold valueish; auto.
    + pose proof (mode_text false b prev st r name w st' F Sm Q) as G. rewrite Ps in G. apply G; auto. discriminate.
  - destruct q.
    + rewrite (mode_says_cnt b true (t_cnt st) (count_open (t_cnt st))).
      apply (mode_text true b prev _ _ name w st' (S true (count_open (t_cnt st))) (SS _ _)); auto. cbn. discriminate.
    + rewrite (mode_says_cnt b false (t_cnt st) (count_bracket b (t_cnt st))).
      apply (mode_text false b prev _ _ name w st' (S false (count_bracket b (t_cnt st))) (SS _ _)); auto. discriminate.
Qed.

(** ** The loop *)
Lemma texts_app V a : forall n b, reading_texts V n (a ++ b) = reading_texts V n a ++ reading_texts V (dep n a) b.
Proof.
  induction a as [|e a IH]; intros n b; auto. cbn [app]. destruct e; cbn [reading_texts]; rewrite ?IH; auto. now rewrite app_assoc.
Qed.

Lemma loop_text s : forall prev st r name w st' ms, follows st r -> sim prev st name w -> t_loop prev s st = Ok st' ->
  t_loop_says prev s st ms = Ok (st', ms ++ RT (length (w_open w)) (events_from prev s r name)).
Proof.
  induction s as [|b s IH]; intros prev st r name w st' ms F Sm H; cbn [t_loop t_loop_says events_from] in *.
  - inversion H; subst. cbn. now rewrite app_nil_r.
  - pose proof (agrees_step prev b st r F) as A. cbn zeta in A.
    destruct (t_step prev b st) as [st1| | |] eqn:E; try discriminate. cbn [rbind] in H.
    pose proof (step_text prev b st r name w st1 F Sm E) as T. cbn zeta in T. rewrite T. cbn [rbind].
    destruct (read_byte _ _ b r) as [r'|] eqn:Rb; [|contradiction].
    pose proof (step_sim denote prev b st r name w st1 F Sm E) as S1. cbn zeta in S1.
    rewrite (IH (Some b) st1 r' _ _ st' _ A (S1 (fun v _ => denote_means v)) H).
    rewrite puts_depth, texts_app, app_assoc. reflexivity.
Qed.

Lemma loop_panic s : forall prev st ms, t_loop prev s st = Panic -> t_loop_says prev s st ms = Panic.
Proof.
  induction s as [|b s IH]; intros prev st ms H; cbn [t_loop t_loop_says] in *; [discriminate|].
  pose proof (step_settled prev b st) as Se. destruct (t_step_says prev b st); cbn in *; try contradiction; auto.
  destruct (t_step prev b st); cbn [rbind] in *; auto; discriminate.
Qed.

(** ** The quotes *)
Lemma loop_quotes s : forall prev st st', t_loop prev s st = Ok st' ->
  n_oq (t_cnt st') + n_cq (t_cnt st') = n_oq (t_cnt st) + n_cq (t_cnt st) + quotes prev s.
Proof.
  induction s as [|b s IH]; intros prev st st' H; cbn [t_loop quotes] in *.
  - inversion H; subst. lia.
  - destruct (t_step prev b st) as [st1| | |] eqn:E; try discriminate. cbn [rbind] in H. apply IH in H.
    apply t_step_cnt in E. unfold cnt_ps in E. cbn zeta in E.
    destruct (Ascii.eqb b c_dq && _).
    + destruct (t_ps st); injection E as E1 _; rewrite E1 in H; cbn [n_oq n_cq count_open count_close] in H; lia.
    + destruct (t_ps st); injection E as E1 _; rewrite E1 in H; [lia|]. unfold count_bracket in H.
      repeat match type of H with context [if ?x then _ else _] => destruct x end; cbn [n_oq n_cq] in H; lia.
Qed.

Definition post_texts (c : counts) : list str :=
  (if Nat.eqb (n_lb c) (n_rb c) then []
   else [lit "error: opening and closing brackets {} do not match, opening: " ++ say_int (n_lb c)
         ++ lit " closing: " ++ say_int (n_rb c)])
  ++ (if Nat.eqb (n_ls c) (n_rs c) then []
      else [lit "error: opening and closing squares [] do not match, opening: " ++ say_int (n_ls c)
            ++ lit " closing: " ++ say_int (n_rs c)])
  ++ (if Nat.eqb (n_oq c) (n_cq c) then []
      else [lit "error: opening and closing quotes do not match, opening: " ++ say_int (n_oq c)
            ++ lit " closing: " ++ say_int (n_cq c)]).

Lemma unequal_text what a b : forall l, l = lit "error: opening and closing " ++ what ++ lit " do not match, opening: " ->
  (if Nat.eqb a b then [] else [l ++ say_int a ++ lit " closing: " ++ say_int b]) = unequal say_int what a b.
Proof. intros l ->. unfold unequal. destruct (Nat.eqb a b); auto. now rewrite <- !app_assoc. Qed.

Lemma balance_text s st : t_loop None s tst0 = Ok st -> post_texts (t_cnt st) = balance_texts say_int s.
Proof.
  intros H. pose proof (loop_quotes _ _ _ _ H) as Qs. apply loop_counts in H. cbn [t_ps tst0 t_cnt counts0 n_oq n_cq] in *.
  unfold balance_texts, post_texts. cbv zeta. destruct (outside None false s) as [o q]. cbn [fst snd] in H |- *. unfold cadd in H.
  cbn [n_lb n_rb n_ls n_rs n_oq n_cq counts0] in H. destruct H as (A & B & C & D & E).
  rewrite !Nat.add_0_l in *. rewrite A, B, C, D.
  rewrite (unequal_text (lit "brackets {}")), (unequal_text (lit "squares []")) by reflexivity. f_equal. f_equal.
  rewrite <- Qs. destruct q.
  - assert (n_oq (t_cnt st) = S (n_cq (t_cnt st))) as -> by lia.
    replace (S (n_cq (t_cnt st)) + n_cq (t_cnt st)) with (S (2 * n_cq (t_cnt st))) by lia.
    rewrite Nat.even_succ, <- Nat.negb_even, Nat.even_mul. cbn [Nat.even orb negb].
    assert (Nat.div2 (S (2 * n_cq (t_cnt st))) = n_cq (t_cnt st)) as -> by apply Nat.div2_succ_double.
    now rewrite (unequal_text (lit "quotes")) by reflexivity.
  - assert (n_oq (t_cnt st) = n_cq (t_cnt st)) as -> by lia.
    replace (n_cq (t_cnt st) + n_cq (t_cnt st)) with (2 * n_cq (t_cnt st)) by lia.
    rewrite Nat.even_mul. cbn [Nat.even orb]. now rewrite Nat.eqb_refl.
Qed.

(** ** Kinds and texts *)
Definition Fw := Forall2 (wording say_int).

Lemma texts_errs l : forall w ms, Fw (w_errs w) ms ->
  Fw (w_errs (fold_left (put_event denote) l w)) (ms ++ RT (length (w_open w)) l).
Proof.
  induction l as [|e l IH]; intros w ms H; cbn [fold_left].
  - cbn. now rewrite app_nil_r.
  - assert (G : exists x, Fw (w_errs (put_event denote w e)) (ms ++ x)
      /\ RT (length (w_open w)) (e :: l) = x ++ RT (length (w_open (put_event denote w e))) l).
    { rewrite put_depth. destruct w as [o nm top es]. cbn [w_open w_errs] in *. destruct e; cbn [put_event w_open w_errs reading_texts dep fold_left].
      - exists []. rewrite app_nil_r. auto.
      - exists []. rewrite app_nil_r. auto.
      - destruct o as [|[c n] o]; cbn [length w_errs].
        + exists [say_no_list]. split; auto. apply Forall2_app; auto. repeat constructor.
        + exists (val_says v). split; auto. pose proof (val_wording v) as W. destruct (denote v) as [|d|e]; cbn [w_errs].
          * rewrite W, app_nil_r. exact H.
          * rewrite W, app_nil_r. exact H.
          * apply Forall2_app; auto.
      - exists []. rewrite app_nil_r. split; [|reflexivity]. destruct o as [|[c n] [|[c' n'] o]]; exact H. }
    destruct G as (x & G & ->). rewrite app_assoc. now apply IH.
Qed.

Definition pre_texts (s : str) : list str := wrap_texts s.

Lemma pre_wording s : Fw (pre_errs s) (pre_texts s).
Proof.
  unfold pre_errs, pre_texts, wrap_texts. repeat apply Forall2_app.
  - destruct s; repeat constructor.
  - destruct (has_prefix _ _); repeat constructor.
  - destruct (has_suffix _ _); repeat constructor.
Qed.

Lemma post_wording c : Fw (post_errs c) (post_texts c).
Proof.
  unfold post_errs, post_texts. repeat apply Forall2_app.
  - destruct (Nat.eqb (n_lb c) (n_rb c)); repeat constructor.
  - destruct (Nat.eqb (n_ls c) (n_rs c)); repeat constructor.
  - destruct (Nat.eqb (n_oq c) (n_cq c)); repeat constructor.
Qed.

(** The messages of every call that does not panic. *)
Theorem messages_model X h s : reachable X h -> panics_on s = false ->
  exists r h' o, Parse X s h = Ok (r, h') /\ Parse_says X s h = Ok ((o, told say_int val_says s), h')
    /\ same_answer say_int r o (told say_int val_says s).
Proof.
  intros R P. unfold Parse, Parse_says, told. cbv zeta. fold (pre_errs s). fold (wrap_texts s).
  pose proof (pre_wording s) as Wp. unfold pre_texts in Wp. unfold Fw in Wp.
  destruct (pre_errs s) as [|e es] eqn:Ep.
  2: { inversion Wp as [|? m ? ms W1 W2 Eq1 Eq2]; subst.
       exists (GErr (e :: es)), h, None. split; [reflexivity|]. split; [reflexivity|]. split; auto; constructor; auto. }
  assert (Eq : wrap_texts s = []) by now inversion Wp. clear Wp. rewrite Eq.
  pose proof (tparse_total s) as T. unfold tparse in T. rewrite Ep in T.
  destruct (str_eqb s (lit "{}")) eqn:S0.
  { unfold bind. destruct (ParseWorld.run_new_map X h (view h)) as (h' & -> & L'); [now apply live_view|].
    assert (E0 : told say_int val_says s = []) by (apply str_eqb_eq in S0; subst s; vm_compute; reflexivity).
    unfold told in E0. rewrite Eq in E0. rewrite E0. exists (GVal (Some (S (length h)))), h', (Some (S (length h))). repeat split; auto. }
  destruct (t_loop None s tst0) as [st| | |] eqn:L; cbn [rbind] in T; try contradiction; [|congruence].
  pose proof (loop_text s None tst0 start [] nothing st [] follows_start sim_start L) as Lt. cbn [app nothing w_open length] in Lt.
  fold (events s) in Lt. pose proof (says_refines X h s R) as Sr. rewrite Lt in Sr.
  destruct Sr as (ps & h' & Ls & Lp & Ec & Ee). unfold bind. rewrite Ls, Lp. cbn [fst snd]. rewrite Ec, Ee.
  destruct (loop_sim denote s None tst0 start [] nothing st follows_start sim_start L (fun v _ => denote_means v)) as (nm & Sm).
  fold (events s) in Sm. pose proof (EveryFacts.si_errs _ _ _ _ Sm) as Er.
  pose proof (texts_errs (events s) nothing [] (Forall2_nil _)) as W. rewrite <- Er in W. cbn [app nothing w_open length] in W. unfold Fw in W.
  destruct (t_errs st) as [|e es].
  2: { inversion W as [|? m ? ms W1 W2 Eq1 Eq2]; subst. exists (GErr (e :: es)), h', None. repeat split; auto. }
  assert (Eq2 : reading_texts val_says 0 (events s) = []) by now inversion W. rewrite Eq2. fold (post_errs (t_cnt st)). fold (post_texts (t_cnt st)). rewrite <- (balance_text s st L).
  pose proof (post_wording (t_cnt st)) as Wb. unfold Fw in Wb.
  destruct (post_errs (t_cnt st)) as [|e es].
  2: { inversion Wb as [|? m ? ms W1 W2 Eq1 Eq3]; subst. exists (GErr (e :: es)), h', None. repeat split; auto. }
  inversion Wb as [Eq3|]. exists (GVal (p_root ps)), h', (p_root ps). repeat split; auto.
Qed.

Theorem messages_panic X h s : reachable X h -> panics_on s = true -> Parse_says X s h = Panic.
Proof.
  intros R P. pose proof (proj2 (parse_panics_iff X h s R) P) as Pp. unfold Parse in Pp. unfold Parse_says. cbv zeta in *.
  fold (pre_errs s) in Pp. fold (wrap_texts s). pose proof (pre_wording s) as Wp. unfold pre_texts, Fw in Wp.
  destruct (pre_errs s) as [|e es] eqn:Ep; [|discriminate]. assert (Eq : wrap_texts s = []) by now inversion Wp. rewrite Eq.
  destruct (str_eqb s (lit "{}")) eqn:S0.
  { apply str_eqb_eq in S0. subst s. discriminate. }
  pose proof (tparse_total s) as T. unfold tparse in T. rewrite Ep, S0 in T.
  destruct (t_loop None s tst0) as [st| | |] eqn:L; cbn [rbind] in T; try contradiction.
  - exfalso. destruct (t_errs st); [destruct (post_errs (t_cnt st))|]; congruence.
  - pose proof (says_refines X h s R) as Sr. rewrite (loop_panic s None tst0 [] L) in Sr. unfold bind. now rewrite Sr.
Qed.

(** ** With any digits and any values that fit the specification *)
Lemma reading_ext V V' l : forall n, (forall v, In (Holds v) l -> V v = V' v) -> reading_texts V n l = reading_texts V' n l.
Proof.
  induction l as [|e l IH]; intros n H; auto. destruct e; cbn [reading_texts]; try (apply IH; intros; apply H; now right).
  rewrite (IH n) by (intros; apply H; now right). destruct n; auto. now rewrite H by now left.
Qed.

Lemma told_model D V s : decimals D -> (forall v, In (Holds v) (events s) -> value_says D v (V v)) ->
  told D V s = told say_int val_says s.
Proof.
  intros Dd H. unfold told. rewrite (reading_ext V val_says).
  - now rewrite (balance_texts_eq D).
  - intros v I. apply says_val, (value_says_eq D); auto.
Qed.

Theorem all_messages X h s D V : reachable X h -> panics_on s = false -> decimals D ->
  (forall v, In (Holds v) (events s) -> value_says D v (V v)) ->
  exists r h' o, Parse X s h = Ok (r, h') /\ Parse_says X s h = Ok ((o, told D V s), h') /\ same_answer D r o (told D V s).
Proof.
  intros R P Dd H. rewrite (told_model D V s Dd H). destruct (messages_model X h s R P) as (r & h' & o & E1 & E2 & A).
  exists r, h', o. split; [exact E1|]. split; [exact E2|]. unfold same_answer in *. destruct r as [o'|e]; auto.
  destruct A as [Eo A]. split; auto. clear - A Dd. induction A; constructor; auto. now apply wording_eq.
Qed.

Theorem value_says_total D v : decimals D -> exists ms, value_says D v ms.
Proof. intros Dd. exists (val_says v). apply value_says_eq; auto. apply val_exists. Qed.

Theorem value_says_fun D v ms ms' : decimals D -> value_says D v ms -> value_says D v ms' -> ms = ms'.
Proof. intros Dd H H'. apply value_says_eq in H, H'; auto. apply says_val in H, H'. congruence. Qed.
