(** * Well-formed object texts are whole; putting texts together *)
From Coq Require Import Ascii String List NArith ZArith Bool Lia.
From Verif Require Import GoStr StrLemmas GoNum GoFloat Heap Common ValueModel ArrayModel MapModel JsonModel ParserModel
  SpecDict DictLemmas SpecNum NumLemmas SpecWorld Inv World Reach SpecFloat FloatFacts SpecDoc RepFacts
  SpecText SpecToken TreeParser ParseWorld ParseRefine ParseTop TextRun TokenFacts SpecParse ParseFacts TypedFacts ParseMore SpecPanic PanicFacts
  SpecRender RenderFacts ShowFacts SpecRound RoundFacts SpecNormal NormalFacts TidyFacts SpecNest NestFacts.
Import ListNotations.

Lemma read_open_app a : forall prev b r r', read_open prev a r = Some r' ->
  read_open prev (a ++ b) r = read_open (lastp prev a) b r'.
Proof.
  induction a as [|c a IH]; intros prev b r r' H; cbn [app read_open lastp] in *; [now inversion H|].
  destruct (r_open r); [discriminate|]. destruct (read_byte _ _ c r); [|discriminate]. now apply IH.
Qed.

Lemma read_keys s : forall prev v k o, Forall (fun x => ~ structural x) s ->
  read_open prev s (Reading PKeys false v (k :: o)) = Some (Reading PKeys false v (k :: o)).
Proof.
  induction s as [|b s IH]; intros * F; [reflexivity|]. inversion F as [|? ? Nb Fs]; subst.
  apply nstruct in Nb as [D (N1 & N2 & N3 & N4)]. cbn [read_open r_open r_quoted]. rewrite (eqb_ne _ _ D). cbn [andb].
  unfold read_byte. cbn [r_place]. rewrite (eqb_ne _ _ N2). apply IH; auto.
Qed.

Lemma read_colon s : forall prev v k o, Forall (fun x => ~ structural x /\ x <> c_col) s ->
  read_open prev s (Reading PColon false v (k :: o)) = Some (Reading PColon false v (k :: o)).
Proof.
  induction s as [|b s IH]; intros * F; [reflexivity|]. inversion F as [|? ? [Nb Nc] Fs]; subst.
  apply nstruct in Nb as [D N]. cbn [read_open r_open r_quoted]. rewrite (eqb_ne _ _ D). cbn [andb].
  unfold read_byte. cbn [r_place]. rewrite (eqb_ne _ _ Nc). apply IH; auto.
Qed.

Lemma read_blanks s : forall prev v k o, blanks s ->
  read_open prev s (Reading PBefore false v (k :: o)) = Some (Reading PBefore false v (k :: o)).
Proof.
  induction s as [|b s IH]; intros * F; [reflexivity|]. inversion F as [|? ? Bb Fs]; subst.
  cbn [read_open r_open r_quoted]. destruct Bb as [->|[->|[->| ->]]]; apply IH; auto.
Qed.

Lemma read_value s : forall prev v k o, Forall (fun x => ~ structural x /\ x <> c_com) s ->
  read_open prev s (Reading PValue false v (k :: o)) = Some (Reading PValue false (v ++ s) (k :: o)).
Proof.
  induction s as [|b s IH]; intros * F.
  - cbn. now rewrite app_nil_r.
  - inversion F as [|? ? [Nb Nc] Fs]; subst. apply nstruct in Nb as [D (N1 & N2 & N3 & N4)].
    cbn [read_open r_open r_quoted]. rewrite (eqb_ne _ _ D). cbn [andb]. unfold read_byte. cbn [r_place andb r_open r_value].
    rewrite !eqb_ne by auto. cbn [orb]. rewrite IH by auto. now rewrite <- app_assoc.
Qed.

Lemma read_token t pre post prev k o : blanks pre -> token_ok false t -> blanks post ->
  exists p v, (p = PBefore \/ p = PValue) /\ ~ In c_dq v
    /\ read_open prev (pre ++ t ++ post) (Reading PBefore false [] (k :: o)) = Some (Reading p false v (k :: o)).
Proof.
  intros Bpre [F H] Bpost. destruct t as [|x t].
  - exists PBefore, []. split; auto. split; auto. cbn [app]. apply read_blanks. unfold blanks in *. apply Forall_app; auto.
  - exists PValue, ((x :: t) ++ post). split; auto.
    assert (Fa : Forall (fun c => ~ structural c /\ c <> c_com) ((x :: t) ++ post)).
    { apply Forall_app; split; [auto|]. eapply Forall_impl; [|apply Bpost].
      intros y By. split; [now apply blank_nstruct|]. destruct By as [->|[->|[->| ->]]]; discriminate. }
    split.
    { intros I. rewrite Forall_forall in Fa. apply Fa in I as [I _]. apply I. now left. }
    rewrite (read_open_app pre _ _ _ _ (read_blanks pre _ _ _ _ Bpre)). cbn [app] in *. inversion Fa as [|? ? [Nb Nc] Fs]; subst.
    apply nstruct in Nb as [D (N1 & N2 & N3 & N4)]. cbn [read_open r_open r_quoted]. rewrite (eqb_ne _ _ D). cbn [andb].
    unfold read_byte. cbn [r_place andb r_open r_value]. destruct H as [Hb Hs].
    assert (x <> c_sp /\ x <> c_nl /\ x <> c_cr /\ x <> c_tab) as (S1 & S2 & S3 & S4).
    { unfold blank in Hb. repeat split; intros ->; tauto. }
    rewrite (eqb_ne _ _ S1), (eqb_ne _ _ S2), (eqb_ne _ _ S3), (eqb_ne _ _ S4), (eqb_ne _ _ Hs). cbn [orb].
    rewrite !eqb_ne by auto. cbn [orb app]. rewrite read_value by auto. reflexivity.
Qed.

Lemma read_body pl b : forall prev v k o, pl = PValue \/ pl = PName -> body_from (prev_bs prev) b ->
  exists v', read_open prev b (Reading pl true v (k :: o)) = Some (Reading pl true v' (k :: o))
    /\ (pl = PValue -> v' = v ++ b) /\ (pl = PName -> v' = v) /\ lastp prev b <> Some c_bs.
Proof.
  induction b as [|x b IH]; intros * Pl F.
  - exists v. cbn in F |- *. rewrite app_nil_r. split; auto. split; auto. split; auto. intros ->. cbn in F. discriminate.
  - destruct F as [Q F]. cbn [read_open lastp r_open r_quoted].
    replace (Ascii.eqb x c_dq && match prev with Some p => negb (Ascii.eqb p c_bs) | None => true end) with false.
    2: { symmetry. destruct (Ascii.eqb_spec x c_dq) as [E|E]; [|reflexivity].
         specialize (Q E). destruct prev as [p|]; cbn in Q |- *; [now rewrite Q | discriminate]. }
    destruct Pl as [-> | ->]; unfold read_byte; cbn [r_place andb negb].
    + destruct (IH (Some x) (v ++ [x]) k o (or_introl eq_refl) F) as (v' & A & B & _ & C). exists v'. split; auto.
      split; [|split; [discriminate|auto]]. intros _. rewrite (B eq_refl), <- app_assoc. reflexivity.
    + destruct (IH (Some x) v k o (or_intror eq_refl) F) as (v' & A & _ & B & C). exists v'. split; auto.
      split; [discriminate|]. split; auto.
Qed.

Lemma quote_opens prev : prev <> Some c_bs ->
  Ascii.eqb c_dq c_dq && match prev with Some p => negb (Ascii.eqb p c_bs) | None => true end = true.
Proof. intros H. rewrite ascii_eqb_refl. destruct prev as [p|]; auto. cbn. rewrite eqb_ne; auto. congruence. Qed.

Lemma read_key k prev kk o : prev <> Some c_bs -> body_ok k ->
  read_open prev (quoted k) (Reading PKeys false [] (kk :: o)) = Some (Reading PColon false [] (kk :: o)).
Proof.
  intros P B. unfold quoted. cbn [read_open r_open r_quoted]. rewrite (quote_opens prev P). cbn [negb].
  unfold read_byte at 1. cbn [r_place]. change (Ascii.eqb c_dq c_rb) with false. cbn [r_value r_open].
  destruct (read_body PName k (Some c_dq) [] kk o (or_intror eq_refl) (body_from_ok k B)) as (v' & A & _ & E & L).
  specialize (E eq_refl). subst v'. rewrite (read_open_app k _ _ _ _ A). cbn [read_open r_open r_quoted]. rewrite (quote_opens _ L). reflexivity.
Qed.

Lemma space_dq : space_byte c_dq = false.
Proof. reflexivity. Qed.

Lemma lone_none v : ~ In c_dq v -> lone_quote v = false.
Proof.
  induction v as [|c v IH]; intros H; [reflexivity|]. cbn [lone_quote].
  assert (c <> c_dq) as Nc by (intros ->; apply H; now left). assert (~ In c_dq v) as Nv by (intros I; apply H; now right).
  destruct (space_byte c); [auto|]. rewrite (eqb_ne _ _ Nc). destruct (Ascii.eqb c c_bs); [|reflexivity].
  destruct v as [|d u]; [reflexivity|]. rewrite eqb_ne; [reflexivity|]. intros ->. apply Nv. now left.
Qed.

Lemma lone_string b : lone_quote (c_dq :: b ++ [c_dq]) = false.
Proof.
  cbn [lone_quote]. change (space_byte c_dq) with false. rewrite ascii_eqb_refl. rewrite forallb_app. cbn. now rewrite andb_false_r.
Qed.

Definition after_open (o : list kind) (p : place) : Prop := o <> [] -> p = expect PValue o.

Definition Q_text (v : jtext) : Prop := forall prev k o, is_token v = false -> text_ok false v -> prev <> Some c_bs ->
  read_open prev (text_of v) (Reading PBefore false [] (k :: o)) = Some (Reading (expect PValue (k :: o)) false [] (k :: o))
  /\ lastp prev (text_of v) <> Some c_bs.
Definition Q_elems (l : jelems) : Prop := forall prev o, elems_ok false l -> prev <> Some c_bs ->
  exists p, read_open prev (text_elems l ++ [c_rs]) (Reading PBefore false [] (KArray :: o)) = Some (Reading p false [] o) /\ after_open o p.
Definition Q_members (l : jmembers) : Prop := forall prev o, members_ok false l -> prev <> Some c_bs ->
  exists p, read_open prev (text_members l ++ [c_rb]) (Reading PKeys false [] (KObject :: o)) = Some (Reading p false [] o) /\ after_open o p.

Lemma read_string b : Q_text (JStr b).
Proof.
  intros prev k o _ OK NB. cbn [text_ok text_of] in *. split; [|rewrite app_assoc, lastp_snoc; discriminate].
  cbn [app read_open r_open r_quoted]. rewrite (quote_opens prev NB). cbn [negb].
  unfold read_byte at 1. cbn [r_place andb negb r_value r_open app].
  change (Ascii.eqb c_dq c_sp || Ascii.eqb c_dq c_nl || Ascii.eqb c_dq c_cr || Ascii.eqb c_dq c_bs || Ascii.eqb c_dq c_tab) with false.
  cbn match. destruct (read_body PValue b (Some c_dq) [c_dq] k o (or_introl eq_refl) (body_from_ok b OK)) as (v' & A & E & _ & L).
  specialize (E eq_refl). subst v'. rewrite (read_open_app b _ _ _ _ A). cbn [read_open r_open r_quoted]. rewrite (quote_opens _ L).
  cbn [negb]. unfold read_byte. cbn [r_place andb negb r_value r_open app]. unfold finish_value. cbn [r_open r_value r_place r_quoted].
  rewrite lone_string. reflexivity.
Qed.

Lemma read_arr l : Q_elems l -> Q_text (JArr l).
Proof.
  intros IH prev k o _ OK NB. cbn [text_ok text_of] in *. split; [|rewrite app_assoc, lastp_snoc; discriminate].
  destruct (IH (Some c_ls) (k :: o) OK ltac:(discriminate)) as (p & E & P). rewrite (P ltac:(discriminate)) in E.
  cbn [app]. change (read_open prev (c_ls :: text_elems l ++ [c_rs]) (Reading PBefore false [] (k :: o)))
    with (read_open (Some c_ls) (text_elems l ++ [c_rs]) (Reading PBefore false [] (KArray :: k :: o))). exact E.
Qed.
Lemma read_map l : Q_members l -> Q_text (JMap l).
Proof.
  intros IH prev k o _ OK NB. cbn [text_ok text_of] in *. split; [|rewrite app_assoc, lastp_snoc; discriminate].
  destruct (IH (Some c_lb) (k :: o) OK ltac:(discriminate)) as (p & E & P). rewrite (P ltac:(discriminate)) in E.
  cbn [app]. change (read_open prev (c_lb :: text_members l ++ [c_rb]) (Reading PBefore false [] (k :: o)))
    with (read_open (Some c_lb) (text_members l ++ [c_rb]) (Reading PKeys false [] (KObject :: k :: o))). exact E.
Qed.

(** The end of an unquoted value. *)
Lemma value_end b close prev p v k o : p = PBefore \/ p = PValue -> ~ In c_dq v ->
  (b = c_com /\ close = false) \/ ((b = c_rb \/ b = c_rs) /\ close = true) ->
  forall t, exists p', read_open prev (b :: t) (Reading p false v (k :: o))
    = read_open (Some b) t (Reading p' false [] (if close then o else k :: o)) /\ after_open (if close then o else k :: o) p'.
Proof.
  intros P Nv B t. cbn [read_open r_open r_quoted].
  assert (F : finish_value close (Reading PValue false v (k :: o))
    = Some (Reading (expect PValue (if close then o else k :: o)) false [] (if close then o else k :: o))).
  { unfold finish_value. cbn [r_open r_value r_place r_quoted]. rewrite (lone_none v Nv). reflexivity. }
  exists (expect PValue (if close then o else k :: o)). split; [|intros _; reflexivity].
  destruct P as [-> | ->]; destruct B as [[-> ->]|[[-> | ->] ->]]; unfold read_byte; cbn -[finish_value read_open expect]; rewrite F; reflexivity.
Qed.

Lemma read_enil b : Q_elems (ENil b).
Proof.
  intros prev o OK NB. cbn [elems_ok text_elems] in *. rewrite (read_open_app b _ _ _ _ (read_blanks b _ _ _ _ OK)).
  destruct (value_end c_rs true (lastp prev b) PBefore [] KArray o (or_introl eq_refl) ltac:(auto) ltac:(auto) []) as (p & -> & A).
  exists p. split; auto.
Qed.
Lemma read_mnil b : Q_members (MNil b).
Proof.
  intros prev o OK NB. cbn [members_ok text_members] in *. rewrite (read_open_app b _ _ _ _ (read_keys b _ _ _ _ (gap_keys b OK))).
  cbn. eexists. split; [reflexivity|]. intros N. destruct o; [congruence|reflexivity].
Qed.

Lemma array_next o p : after_open (KArray :: o) p -> p = PBefore.
Proof. intros H. now apply H. Qed.
Lemma object_next o p : after_open (KObject :: o) p -> p = PKeys.
Proof. intros H. now apply H. Qed.

Lemma read_econs pre v post comma rest : Q_text v -> Q_elems rest -> Q_elems (ECons pre v post comma rest).
Proof.
  intros IV IR prev o OK NB. cbn [elems_ok] in OK. destruct OK as (Bpre & Tv & Bpost & C & OKr).
  cbn [text_elems]. destruct (is_token v) eqn:TK.
  - destruct v as [t| | |]; try discriminate. cbn [text_of text_ok] in *. cbn [comma_ok] in C. specialize (C eq_refl).
    destruct (read_token t pre post prev KArray o Bpre Tv Bpost) as (p & w & P & Nw & E).
    destruct comma.
    + replace ((pre ++ t ++ post ++ opt_comma true ++ text_elems rest) ++ [c_rs])
        with ((pre ++ t ++ post) ++ c_com :: text_elems rest ++ [c_rs]) by (cbn [opt_comma app]; rewrite <- !app_assoc; reflexivity).
      rewrite (read_open_app _ _ _ _ _ E).
      destruct (value_end c_com false (lastp prev (pre ++ t ++ post)) p w KArray o P Nw ltac:(auto) (text_elems rest ++ [c_rs])) as (p' & -> & A).
      apply array_next in A. subst p'. apply IR; auto. discriminate.
    + destruct C as [C|[_ ->]]; [discriminate|].
      replace ((pre ++ t ++ post ++ opt_comma false ++ text_elems (ENil [])) ++ [c_rs])
        with ((pre ++ t ++ post) ++ [c_rs]) by (cbn [opt_comma app text_elems]; rewrite <- !app_assoc; reflexivity).
      rewrite (read_open_app _ _ _ _ _ E).
      destruct (value_end c_rs true (lastp prev (pre ++ t ++ post)) p w KArray o P Nw ltac:(auto) []) as (p' & -> & A).
      exists p'. split; auto.
  - destruct (IV (lastp prev pre) KArray o TK Tv (nbs_blanks _ _ NB Bpre)) as (E & L).
    replace ((pre ++ text_of v ++ post ++ opt_comma comma ++ text_elems rest) ++ [c_rs])
      with (pre ++ text_of v ++ post ++ opt_comma comma ++ (text_elems rest ++ [c_rs])) by (rewrite <- !app_assoc; reflexivity).
    rewrite (read_open_app pre _ _ _ _ (read_blanks pre _ _ _ _ Bpre)), (read_open_app _ _ _ _ _ E). cbn [expect].
    rewrite (read_open_app post _ _ _ _ (read_blanks post _ _ _ _ Bpost)).
    pose proof (nbs_blanks _ post L Bpost) as L2. destruct comma; cbn [opt_comma app]; [|now apply IR].
    destruct (value_end c_com false (lastp (lastp (lastp prev pre) (text_of v)) post) PBefore [] KArray o (or_introl eq_refl) ltac:(auto) ltac:(auto) (text_elems rest ++ [c_rs])) as (p' & -> & A).
    apply array_next in A. subst p'. apply IR; auto. discriminate.
Qed.

Lemma read_head pre k mid prev kk o : gap false pre -> body_ok k -> gap_colon false mid -> prev <> Some c_bs ->
  read_open prev (pre ++ quoted k ++ mid ++ [c_col]) (Reading PKeys false [] (kk :: o)) = Some (Reading PBefore false [] (kk :: o)).
Proof.
  intros Gp B Gm NB. rewrite (read_open_app pre _ _ _ _ (read_keys pre _ _ _ _ (gap_keys pre Gp))).
  rewrite (read_open_app (quoted k) _ _ _ _ (read_key k _ _ _ (nbs_gap _ _ NB Gp) B)).
  rewrite (read_open_app mid _ _ _ _ (read_colon mid _ _ _ _ ltac:(eapply Forall_impl; [|apply Gm]; now intros x (H1 & H2 & H3)))).
  reflexivity.
Qed.

Lemma read_comma_keys prev k o t : read_open prev (c_com :: t) (Reading PKeys false [] (k :: o)) = read_open (Some c_com) t (Reading PKeys false [] (k :: o)).
Proof. reflexivity. Qed.

Lemma read_mcons pre k mid pre2 v post comma rest : Q_text v -> Q_members rest -> Q_members (MCons pre k mid pre2 v post comma rest).
Proof.
  intros IV IR prev o OK NB. cbn [members_ok] in OK. destruct OK as (Gpre & Bk & Gmid & Bpre2 & Tv & Gpost & C & OKr).
  cbn [text_members]. set (head := pre ++ quoted k ++ mid ++ [c_col]).
  pose proof (read_head pre k mid prev KObject o Gpre Bk Gmid NB) as H. fold head in H.
  assert (NBh : lastp prev head <> Some c_bs). { unfold head. rewrite !app_assoc. rewrite lastp_snoc. discriminate. }
  destruct (is_token v) eqn:TK.
  - destruct v as [t| | |]; try discriminate. cbn [text_of text_ok] in *. cbn [comma_ok] in C. specialize (C eq_refl).
    destruct (read_token t pre2 post (lastp prev head) KObject o Bpre2 Tv Gpost) as (p & w & P & Nw & E).
    destruct comma.
    + replace ((pre ++ ([c_dq] ++ k ++ [c_dq]) ++ mid ++ [c_col] ++ pre2 ++ t ++ post ++ opt_comma true ++ text_members rest) ++ [c_rb])
        with (head ++ (pre2 ++ t ++ post) ++ c_com :: (text_members rest ++ [c_rb]))
        by (unfold head, quoted, opt_comma; cbn [app]; repeat (rewrite <- app_assoc; cbn [app]); reflexivity).
      rewrite (read_open_app _ _ _ _ _ H), (read_open_app _ _ _ _ _ E).
      destruct (value_end c_com false (lastp (lastp prev head) (pre2 ++ t ++ post)) p w KObject o P Nw ltac:(auto) (text_members rest ++ [c_rb])) as (p' & -> & A).
      apply object_next in A. subst p'. apply IR; auto. discriminate.
    + destruct C as [C|[_ ->]]; [discriminate|].
      replace ((pre ++ ([c_dq] ++ k ++ [c_dq]) ++ mid ++ [c_col] ++ pre2 ++ t ++ post ++ opt_comma false ++ text_members (MNil [])) ++ [c_rb])
        with (head ++ (pre2 ++ t ++ post) ++ [c_rb])
        by (unfold head, quoted; cbn [app opt_comma text_members]; repeat (rewrite <- app_assoc; cbn [app]); reflexivity).
      rewrite (read_open_app _ _ _ _ _ H), (read_open_app _ _ _ _ _ E).
      destruct (value_end c_rb true (lastp (lastp prev head) (pre2 ++ t ++ post)) p w KObject o P Nw ltac:(auto) []) as (p' & -> & A).
      exists p'. split; auto.
  - destruct (IV (lastp (lastp prev head) pre2) KObject o TK Tv (nbs_blanks _ _ NBh Bpre2)) as (E & L).
    replace ((pre ++ ([c_dq] ++ k ++ [c_dq]) ++ mid ++ [c_col] ++ pre2 ++ text_of v ++ post ++ opt_comma comma ++ text_members rest) ++ [c_rb])
      with (head ++ pre2 ++ text_of v ++ post ++ opt_comma comma ++ (text_members rest ++ [c_rb]))
      by (unfold head, quoted; cbn [app]; repeat (rewrite <- app_assoc; cbn [app]); reflexivity).
    rewrite (read_open_app _ _ _ _ _ H), (read_open_app pre2 _ _ _ _ (read_blanks pre2 _ _ _ _ Bpre2)), (read_open_app _ _ _ _ _ E).
    cbn [expect]. rewrite (read_open_app post _ _ _ _ (read_keys post _ _ _ _ (gap_keys post Gpost))).
    pose proof (nbs_gap _ post L Gpost) as L2. destruct comma; cbn [opt_comma app]; [|now apply IR].
    rewrite read_comma_keys. apply IR; auto. discriminate.
Qed.

Lemma read_grammar : (forall v, Q_text v) /\ (forall l, Q_elems l) /\ (forall l, Q_members l).
Proof.
  apply jtext_combined.
  - intros t prev k o H. discriminate.
  - apply read_string.
  - apply read_arr.
  - apply read_map.
  - apply read_enil.
  - intros. now apply read_econs.
  - apply read_mnil.
  - intros. now apply read_mcons.
Qed.

Lemma grammar_whole l : members_ok false l -> whole (text_of (JMap l)).
Proof.
  intros OK. destruct read_grammar as (_ & _ & M). destruct (M l (Some c_lb) [] OK ltac:(discriminate)) as (p & E & _).
  exists (text_members l ++ [c_rb]), (Reading p false [] []). split; [reflexivity|]. split; auto.
Qed.

(** ** Putting texts together *)

Definition balanced (c c' : counts) : Prop :=
  n_lb c' + n_rb c = n_lb c + n_rb c' /\ n_ls c' + n_rs c = n_ls c + n_rs c' /\ n_oq c' + n_cq c = n_oq c + n_cq c'.

Lemma balanced_trans a b c : balanced a b -> balanced b c -> balanced a c.
Proof. unfold balanced. lia. Qed.
Lemma balanced_post c : balanced counts0 c -> post_errs c = [].
Proof.
  unfold balanced, post_errs. cbn [counts0 n_lb n_rb n_ls n_rs n_oq n_cq]. intros (A & B & C).
  rewrite (proj2 (Nat.eqb_eq (n_lb c) (n_rb c))), (proj2 (Nat.eqb_eq (n_ls c) (n_rs c))), (proj2 (Nat.eqb_eq (n_oq c) (n_cq c))) by lia.
  reflexivity.
Qed.

Lemma inside_bal s d prev tk f a stk R c e at_ : whole s -> tparse s = Ok (GVal (Some d)) -> R <> RNone ->
  t_attach tk ((f, a) :: stk) = Ok (at_, []) ->
  exists c', t_loop prev s (TSt MNext false tk [] ((f, a) :: stk) R c e)
      = Ok (TSt (t_next MValue [(f, a)]) false [] [] ((att_put at_ d f, a) :: stk) R c' e)
    /\ balanced c c' /\ lastp prev s = Some c_rb.
Proof.
  intros W T RN At. destruct (whole_inside s d prev MNext tk [] f a stk R c e at_ [] W T (or_introl eq_refl) RN At) as (c' & E).
  rewrite app_nil_r in E. exists c'. split; auto.
  pose proof (loop_counts _ _ _ _ E) as C. cbn [t_cnt t_ps] in C. destruct (balanced_whole s d T W prev) as (B1 & B2 & B3).
  rewrite B3 in C. unfold cadd in C. split; [unfold balanced; lia|].
  destruct (whole_last s d T) as (_ & u & ->). apply lastp_snoc.
Qed.

Lemma member_run k s d prev a es stk R c e : body_ok k -> whole s -> tparse s = Ok (GVal (Some d)) -> R <> RNone -> prev <> Some c_bs ->
  exists c', t_loop prev (quoted k ++ [c_col] ++ s) (TSt MKeys false [] [] ((FMap es, a) :: stk) R c e)
      = Ok (TSt MKeys false [] [] ((FMap (dict_set es (latin1 k) d), a) :: stk) R c' e)
    /\ balanced c c' /\ lastp prev (quoted k ++ [c_col] ++ s) = Some c_rb.
Proof.
  intros B W T RN NB.
  pose proof (member_head [] k [] prev ((FMap es, a) :: stk) R c e ltac:(constructor) B ltac:(constructor) NB) as H.
  cbn [app] in H.
  destruct (inside_bal s d (lastp prev (quoted k ++ [c_col])) (quoted (latin1 k)) (FMap es) a stk R (count_close (count_open c)) e (AKey (latin1 k)) W T RN) as (c' & E & Bal & L).
  { unfold t_attach. cbn [is_fmap]. unfold unquote_key. rewrite is_quoted_quoted, slice_quoted. reflexivity. }
  exists c'. rewrite app_assoc. rewrite (t_loop_ok _ _ _ _ _ H), E. split; [reflexivity|]. split.
  - eapply balanced_trans; [|apply Bal]. unfold balanced. destruct c; cbn. lia.
  - rewrite lastp_app. exact L.
Qed.

Lemma members_run l : forall ds prev a es stk R c e,
  Forall2 (fun ks d => body_ok (fst ks) /\ whole (snd ks) /\ tparse (snd ks) = Ok (GVal (Some d))) l ds ->
  R <> RNone -> prev <> Some c_bs ->
  exists c', t_loop prev (commas (map (fun ks => ([c_dq] ++ fst ks ++ [c_dq]) ++ [c_col] ++ snd ks) l))
        (TSt MKeys false [] [] ((FMap es, a) :: stk) R c e)
      = Ok (TSt MKeys false [] [] ((FMap (fold_left (fun m kd => dict_set m (fst kd) (snd kd))
              (combine (map (fun ks => latin1 (fst ks)) l) ds) es), a) :: stk) R c' e)
    /\ balanced c c'.
Proof.
  induction l as [|[k s] l IH]; intros ds prev a es stk R c e F RN NB.
  - inversion F; subst. exists c. split; [reflexivity|]. unfold balanced. lia.
  - inversion F as [|? d ? ds' (Bk & W & T) F']; subst. cbn [fst snd] in *.
    destruct (member_run k s d prev a es stk R c e Bk W T RN NB) as (c1 & E & Bal & L).
    change (quoted k ++ [c_col] ++ s) with (([c_dq] ++ k ++ [c_dq]) ++ [c_col] ++ s) in E, L.
    cbn [map combine fold_left fst snd]. destruct l as [|ks l].
    + inversion F'; subst. exists c1. cbn [map commas combine fold_left]. split; auto.
    + destruct (IH ds' (Some c_com) a (dict_set es (latin1 k) d) stk R c1 e F' RN ltac:(discriminate)) as (c2 & E2 & Bal2).
      exists c2. split; [|eapply balanced_trans; eauto].
      change (commas ((([c_dq] ++ k ++ [c_dq]) ++ [c_col] ++ s) :: map (fun ks => ([c_dq] ++ fst ks ++ [c_dq]) ++ [c_col] ++ snd ks) (ks :: l)))
        with ((([c_dq] ++ k ++ [c_dq]) ++ [c_col] ++ s) ++ [c_com] ++ commas (map (fun ks => ([c_dq] ++ fst ks ++ [c_dq]) ++ [c_col] ++ snd ks) (ks :: l))).
      rewrite (t_loop_ok _ _ _ _ _ E). rewrite <- E2. reflexivity.
Qed.

Lemma elems_run l : forall ds prev a xs stk R c e,
  Forall2 (fun s d => whole s /\ tparse s = Ok (GVal (Some d))) l ds -> R <> RNone ->
  exists c', t_loop prev (commas l) (TSt MNext false [] [] ((FArr xs, a) :: stk) R c e)
      = Ok (TSt MNext false [] [] ((FArr (xs ++ ds), a) :: stk) R c' e)
    /\ balanced c c'.
Proof.
  induction l as [|s l IH]; intros ds prev a xs stk R c e F RN.
  - inversion F; subst. exists c. rewrite app_nil_r. split; [reflexivity|]. unfold balanced. lia.
  - inversion F as [|? d ? ds' (W & T) F']; subst.
    destruct (inside_bal s d prev [] (FArr xs) a stk R c e AElem W T RN eq_refl) as (c1 & E & Bal & L).
    cbn [att_put put_doc t_next is_fmap] in E. destruct l as [|s2 l].
    + inversion F'; subst. exists c1. cbn [commas]. split; auto.
    + destruct (IH ds' (Some c_com) a (xs ++ [d]) stk R c1 e F' RN) as (c2 & E2 & Bal2).
      exists c2. split; [|eapply balanced_trans; eauto].
      change (commas (s :: s2 :: l)) with (s ++ [c_com] ++ commas (s2 :: l)).
      rewrite (t_loop_ok _ _ _ _ _ E), (t_loop_ok [c_com] _ _ _ _ (next_comma _ _ _ _ _ _ _)).
      rewrite <- app_assoc in E2. exact E2.
Qed.

Lemma tparse_run t st d : has_suffix [c_rb] (c_lb :: t) = true -> 
  t_loop (Some c_lb) t (TSt MKeys false [] [] [(FMap [], ANone)] ROpen (count_bracket c_lb counts0) []) = Ok st ->
  t_errs st = [] -> balanced counts0 (t_cnt st) -> t_stk st = [] -> t_root st = RDone d ->
  (c_lb :: t = lit "{}" -> d = DMap []) ->
  tparse (c_lb :: t) = Ok (GVal (Some d)).
Proof.
  intros S L E B Sk R E0. unfold tparse, pre_errs. rewrite S. change (has_prefix [c_lb] (c_lb :: t)) with true. cbn [app].
  destruct (str_eqb_spec (c_lb :: t) (lit "{}")) as [Q|Q]; [now rewrite (E0 Q)|].
  cbn [t_loop]. assert (t_step None c_lb tst0 = Ok (TSt MKeys false [] [] [(FMap [], ANone)] ROpen (count_bracket c_lb counts0) [])) as -> by reflexivity.
  cbn [rbind]. rewrite L. cbn [rbind]. rewrite E, (balanced_post _ B), Sk, R. reflexivity.
Qed.

Lemma object_tree l ds :
  Forall2 (fun ks d => body_ok (fst ks) /\ whole (snd ks) /\ tparse (snd ks) = Ok (GVal (Some d))) l ds ->
  tparse (object_text l) = Ok (GVal (Some (DMap (put_all l ds)))).
Proof.
  intros F. unfold object_text.
  destruct (members_run l ds (Some c_lb) ANone [] [] ROpen (count_bracket c_lb counts0) [] F ltac:(discriminate) ltac:(discriminate)) as (c & E & Bal).
  set (t := commas (map (fun ks => ([c_dq] ++ fst ks ++ [c_dq]) ++ [c_col] ++ snd ks) l)) in *.
  change ([c_lb] ++ t ++ [c_rb]) with (c_lb :: t ++ [c_rb]).
  eapply tparse_run.
  - rewrite app_comm_cons. now rewrite has_suffix1_app, ascii_eqb_refl.
  - rewrite (t_loop_ok _ _ _ _ _ E). cbn [t_loop]. rewrite close_keys_step. reflexivity.
  - reflexivity.
  - unfold balanced in *. cbn in *. destruct c; cbn in *. lia.
  - reflexivity.
  - reflexivity.
  - intros Q. destruct F as [|ks d l ds (B & _) F]; [reflexivity|]. exfalso. unfold t in Q. cbn [map] in Q.
    apply (f_equal (@length ascii)) in Q. destruct l; cbn [map commas] in Q; cbn in Q; rewrite ?app_length in Q; cbn in Q; lia.
Qed.

Lemma array_tree k l ds : body_ok k ->
  Forall2 (fun s d => whole s /\ tparse s = Ok (GVal (Some d))) l ds ->
  tparse (object_text [(k, array_text l)]) = Ok (GVal (Some (DMap [(latin1 k, DArr ds)]))).
Proof.
  intros B F. unfold object_text, array_text. cbn [map commas fst snd].
  pose proof (member_head [] k [] (Some c_lb) [(FMap [], ANone)] ROpen (count_bracket c_lb counts0) [] ltac:(constructor) B ltac:(constructor) ltac:(discriminate)) as H.
  cbn [app] in H. set (c1 := count_close (count_open (count_bracket c_lb counts0))) in *.
  pose proof (open_array_run (FMap []) ANone k (quoted (latin1 k)) [] ROpen c1 [] (lastp (Some c_lb) (quoted k ++ [c_col])) ltac:(split; auto)) as O.
  cbn [is_fmap] in O.
  destruct (elems_run l ds (Some c_ls) (AKey (latin1 k)) [] [(FMap [], ANone)] ROpen (count_bracket c_ls c1) [] F ltac:(discriminate)) as (c & E & Bal).
  replace ([c_lb] ++ (([c_dq] ++ k ++ [c_dq]) ++ [c_col] ++ [c_ls] ++ commas l ++ [c_rs]) ++ [c_rb])
    with (c_lb :: (quoted k ++ [c_col]) ++ [c_ls] ++ commas l ++ [c_rs; c_rb])
    by (unfold quoted; cbn [app]; repeat (rewrite <- app_assoc; cbn [app]); reflexivity).
  eapply tparse_run.
  - rewrite !app_comm_cons. change [c_rs; c_rb] with ([c_rs] ++ [c_rb]). rewrite !app_assoc. now rewrite has_suffix1_app, ascii_eqb_refl.
  - rewrite (t_loop_ok _ _ _ _ _ H). cbn [app t_loop]. rewrite O. cbn [rbind]. rewrite (t_loop_ok _ _ _ _ _ E). cbn [t_loop].
    rewrite (end_step c_rs true) by auto. reflexivity.
  - reflexivity.
  - unfold c1, balanced in *. cbn in *. destruct c; cbn in *. lia.
  - reflexivity.
  - reflexivity.
  - intros Q. apply (f_equal (@length ascii)) in Q. cbn in Q. rewrite ?app_length in Q. cbn in Q. lia.
Qed.

(** ** The results are whole again *)

Definition rlift (o : list kind) (r : reading) : reading :=
  match r_open r with
  | [] => Reading (expect PValue o) (r_quoted r) [] o
  | os => Reading (r_place r) (r_quoted r) (r_value r) (os ++ o)
  end.

Lemma read_byte_lift q qd b r r' k o : r_open r <> [] -> read_byte q qd b r = Some r' ->
  read_byte q qd b (rlift (k :: o) r) = Some (rlift (k :: o) r').
Proof.
  destruct r as [pl q0 v os]. destruct os as [|k1 os]; [cbn; congruence|]. intros _ H.
  unfold rlift at 1. cbn [r_open r_place r_quoted r_value].
  destruct pl; unfold read_byte in *; cbn [r_open r_place r_quoted r_value] in *.
  - destruct (Ascii.eqb b c_rb).
    + unfold close_object in *. cbn [r_open r_place r_quoted r_value app] in *. inversion H; subst. destruct os; reflexivity.
    + inversion H; subst. reflexivity.
  - inversion H; subst. reflexivity.
  - inversion H; subst. reflexivity.
  - unfold finish_value in *. cbn [r_open r_place r_quoted r_value app] in *.
    destruct (q && negb qd).
    { destruct (lone_quote _); [discriminate|]. inversion H; subst. reflexivity. }
    cbn [andb] in *.
    destruct (Ascii.eqb b c_sp || Ascii.eqb b c_nl || Ascii.eqb b c_cr || Ascii.eqb b c_bs || Ascii.eqb b c_tab); [inversion H; subst; reflexivity|].
    destruct qd; [inversion H; subst; reflexivity|]. destruct (Ascii.eqb b c_lb); [inversion H; subst; reflexivity|].
    destruct (Ascii.eqb b c_ls); [inversion H; subst; reflexivity|].
    destruct (Ascii.eqb b c_rb || Ascii.eqb b c_rs).
    { destruct (lone_quote _); [discriminate|]. inversion H; subst. destruct os; reflexivity. }
    destruct (Ascii.eqb b c_com).
    { destruct (lone_quote _); [discriminate|]. inversion H; subst. reflexivity. }
    inversion H; subst; reflexivity.
  - unfold finish_value in *. cbn [r_open r_place r_quoted r_value app] in *.
    destruct (q && negb qd).
    { destruct (lone_quote _); [discriminate|]. inversion H; subst. reflexivity. }
    cbn [andb] in *.
    destruct qd; [inversion H; subst; reflexivity|]. destruct (Ascii.eqb b c_lb); [inversion H; subst; reflexivity|].
    destruct (Ascii.eqb b c_ls); [inversion H; subst; reflexivity|].
    destruct (Ascii.eqb b c_rb || Ascii.eqb b c_rs).
    { destruct (lone_quote _); [discriminate|]. inversion H; subst. destruct os; reflexivity. }
    destruct (Ascii.eqb b c_com).
    { destruct (lone_quote _); [discriminate|]. inversion H; subst. reflexivity. }
    inversion H; subst; reflexivity.
Qed.

Lemma rlift_open k o r : r_open (rlift (k :: o) r) <> [].
Proof. unfold rlift. destruct (r_open r); discriminate. Qed.
Lemma rlift_quoted k o r : r_quoted (rlift (k :: o) r) = r_quoted r.
Proof. unfold rlift. now destruct (r_open r). Qed.

Lemma read_open_lift s : forall prev r r' k o, read_open prev s r = Some r' ->
  read_open prev s (rlift (k :: o) r) = Some (rlift (k :: o) r').
Proof.
  induction s as [|b s IH]; intros prev r r' k o H; cbn [read_open] in *; [now inversion H|].
  destruct (r_open r) eqn:O; [discriminate|].
  destruct (read_byte _ _ b r) as [r1|] eqn:B; [|discriminate].
  destruct (r_open (rlift (k :: o) r)) eqn:O2; [now apply rlift_open in O2|].
  assert (N : r_open r <> []) by congruence. rewrite rlift_quoted. rewrite (read_byte_lift _ _ _ _ _ k o N B). now apply IH.
Qed.

Lemma read_open_all s : forall prev r r', read_open prev s r = Some r' -> read_all prev s r = Some r'.
Proof.
  induction s as [|b s IH]; intros prev r r' H; cbn [read_open read_all] in *; auto.
  destruct (r_open r); [discriminate|]. destruct (read_byte _ _ b r); [|discriminate]. auto.
Qed.

Lemma whole_read s d prev k o : whole s -> tparse s = Ok (GVal (Some d)) ->
  read_open prev s (Reading PBefore false [] (k :: o)) = Some (Reading (expect PValue (k :: o)) false [] (k :: o)).
Proof.
  intros W T. destruct (whole_alone s d W T) as (st & L & _ & _ & _ & Ps & _).
  destruct W as (t & r & -> & O & Hr).
  pose proof (read_all_loop (c_lb :: t) None tst0 start follows_start) as F. rewrite L in F.
  assert (E : read_all None (c_lb :: t) start = Some r) by (apply read_open_all in O; exact O). rewrite E in F.
  assert (Q : r_quoted r = false). { rewrite <- Ps. apply (fo_quoted _ _ F). }
  change (read_open (Some c_lb) t (rlift (k :: o) (Reading PKeys false [] [KObject])) = Some (Reading (expect PValue (k :: o)) false [] (k :: o))).
  rewrite (read_open_lift _ _ _ _ k o O). unfold rlift. now rewrite Hr, Q.
Qed.

Lemma read_member k s d prev o : body_ok k -> whole s -> tparse s = Ok (GVal (Some d)) -> prev <> Some c_bs ->
  read_open prev (quoted k ++ [c_col] ++ s) (Reading PKeys false [] (KObject :: o)) = Some (Reading PKeys false [] (KObject :: o)).
Proof.
  intros B W T NB. pose proof (read_head [] k [] prev KObject o ltac:(constructor) B ltac:(constructor) NB) as H. cbn [app] in H.
  rewrite app_assoc, (read_open_app _ _ _ _ _ H). now rewrite (whole_read s d _ KObject o W T).
Qed.

Lemma read_members l : forall ds prev o,
  Forall2 (fun ks d => body_ok (fst ks) /\ whole (snd ks) /\ tparse (snd ks) = Ok (GVal (Some d))) l ds -> prev <> Some c_bs ->
  read_open prev (commas (map (fun ks => ([c_dq] ++ fst ks ++ [c_dq]) ++ [c_col] ++ snd ks) l)) (Reading PKeys false [] (KObject :: o))
  = Some (Reading PKeys false [] (KObject :: o)).
Proof.
  induction l as [|[k s] l IH]; intros ds prev o F NB; [reflexivity|].
  inversion F as [|? d ? ds' (Bk & W & T) F']; subst. cbn [fst snd] in *.
  pose proof (read_member k s d prev o Bk W T NB) as E.
  change (quoted k ++ [c_col] ++ s) with (([c_dq] ++ k ++ [c_dq]) ++ [c_col] ++ s) in E.
  cbn [map fst snd]. destruct l as [|ks l]; [exact E|].
  change (commas ((([c_dq] ++ k ++ [c_dq]) ++ [c_col] ++ s) :: map (fun ks => ([c_dq] ++ fst ks ++ [c_dq]) ++ [c_col] ++ snd ks) (ks :: l)))
    with ((([c_dq] ++ k ++ [c_dq]) ++ [c_col] ++ s) ++ [c_com] ++ commas (map (fun ks => ([c_dq] ++ fst ks ++ [c_dq]) ++ [c_col] ++ snd ks) (ks :: l))).
  rewrite (read_open_app _ _ _ _ _ E). apply (IH ds' (Some c_com)); auto. discriminate.
Qed.

Lemma read_elems l : forall ds prev o,
  Forall2 (fun s d => whole s /\ tparse s = Ok (GVal (Some d))) l ds ->
  read_open prev (commas l) (Reading PBefore false [] (KArray :: o)) = Some (Reading PBefore false [] (KArray :: o)).
Proof.
  induction l as [|s l IH]; intros ds prev o F; [reflexivity|].
  inversion F as [|? d ? ds' (W & T) F']; subst. pose proof (whole_read s d prev KArray o W T) as E.
  destruct l as [|s2 l]; [exact E|].
  change (commas (s :: s2 :: l)) with (s ++ [c_com] ++ commas (s2 :: l)).
  rewrite (read_open_app _ _ _ _ _ E). apply (IH ds' (Some c_com)); auto.
Qed.

Lemma object_whole l ds :
  Forall2 (fun ks d => body_ok (fst ks) /\ whole (snd ks) /\ tparse (snd ks) = Ok (GVal (Some d))) l ds ->
  whole (object_text l).
Proof.
  intros F. eexists _, _. split; [reflexivity|].
  rewrite (read_open_app _ _ _ _ _ (read_members l ds (Some c_lb) [] F ltac:(discriminate))). split; reflexivity.
Qed.

Lemma array_whole k l ds : body_ok k ->
  Forall2 (fun s d => whole s /\ tparse s = Ok (GVal (Some d))) l ds -> whole (object_text [(k, array_text l)]).
Proof.
  intros B F.
  pose proof (read_head [] k [] (Some c_lb) KObject [] ltac:(constructor) B ltac:(constructor) ltac:(discriminate)) as H. cbn [app] in H.
  eexists ((quoted k ++ [c_col]) ++ [c_ls] ++ commas l ++ [c_rs; c_rb]), _. split.
  - unfold object_text, array_text, quoted. cbn [map commas fst snd app]. repeat (rewrite <- app_assoc; cbn [app]). reflexivity.
  - rewrite (read_open_app _ _ _ _ _ H). cbn [app].
    change (read_open ?p (c_ls :: ?t) (Reading PBefore false [] [KObject])) with (read_open (Some c_ls) t (Reading PBefore false [] [KArray; KObject])).
    rewrite (read_open_app _ _ _ _ _ (read_elems l ds (Some c_ls) [KObject] F)). split; reflexivity.
Qed.

(** ** About Parse *)

Lemma tree_members X h l ds : reachable X h ->
  Forall2 (fun ks d => body_ok (fst ks) /\ whole (snd ks) /\ parses X h (snd ks) (GVal d)) l ds ->
  Forall2 (fun ks d => body_ok (fst ks) /\ whole (snd ks) /\ tparse (snd ks) = Ok (GVal (Some d))) l ds.
Proof. intros R. induction 1 as [|ks d l ds (B & W & P) F IH]; constructor; auto. split; auto. split; auto. eapply tree_of; eauto. Qed.
Lemma tree_elems X h l ds : reachable X h ->
  Forall2 (fun s d => whole s /\ parses X h s (GVal d)) l ds ->
  Forall2 (fun s d => whole s /\ tparse s = Ok (GVal (Some d))) l ds.
Proof. intros R. induction 1 as [|ks d l ds (W & P) F IH]; constructor; auto. split; auto. eapply tree_of; eauto. Qed.

Lemma parse_object X h l ds : reachable X h ->
  Forall2 (fun ks d => body_ok (fst ks) /\ whole (snd ks) /\ parses X h (snd ks) (GVal d)) l ds ->
  whole (object_text l) /\ parses X h (object_text l) (GVal (DMap (put_all l ds))).
Proof.
  intros R F. apply (tree_members X h l ds R) in F. split; [eapply object_whole; eauto|].
  apply parses_tree; auto. now apply object_tree.
Qed.

Lemma parse_array X h k l ds : reachable X h -> body_ok k ->
  Forall2 (fun s d => whole s /\ parses X h s (GVal d)) l ds ->
  whole (object_text [(k, array_text l)]) /\ parses X h (object_text [(k, array_text l)]) (GVal (DMap [(latin1 k, DArr ds)])).
Proof.
  intros R B F. apply (tree_elems X h l ds R) in F. split; [eapply array_whole; eauto|].
  apply parses_tree; auto. now apply array_tree.
Qed.

Lemma written_whole is64 l t : proper is64 (DMap l) -> writable (DMap l) -> shows (DMap l) t -> whole t.
Proof.
  intros P W S. rewrite (shows_fun _ _ _ S (shows_render is64 _ P)). rewrite <- text_jt. cbn [jt].
  apply grammar_whole. apply strict_lenient. exact (jt_ok _ _ P W).
Qed.

Lemma replace_rewritten X h p q s d t : escape_ok X -> reachable X h -> before_value p -> whole s ->
  parses X h s (GVal d) -> writable d -> exact d -> rewrites X s t ->
  (Parse X (p ++ s ++ q) h = Panic <-> Parse X (p ++ t ++ q) h = Panic)
  /\ forall r, parses X h (p ++ s ++ q) r <-> parses X h (p ++ t ++ q) r.
Proof.
  intros E R B W P Wr Ex RW. pose proof (parses_typed _ _ _ _ R P) as T. pose proof (rewrites_doc _ _ _ _ _ E R P RW) as S.
  destruct (written_back _ _ _ _ _ E R P Wr RW) as (d' & C & P'). pose proof (exact_back d d' T Ex C). subst d'.
  apply (replace_text X h p q s t d); auto.
  assert (exists l, d = DMap l) as (l & ->).
  { destruct P as (h1 & m & _ & _ & _ & Rep & _). inversion Rep; subst; try discriminate; eauto.
    match goal with H : _ \/ _ |- _ => destruct H; discriminate end. }
  eapply written_whole; eauto. apply (typed_proper (x_is64 X)). exact T.
Qed.

Lemma trailing_objects X h : reachable X h ->
  parses X h (lit "{""a"":1}") (GVal (DMap [(lit "a", DScal (SInt KUInt8 1))]))
  /\ parses X h (lit "{""a"":1}{""b"":2}") (GVal (DMap [(lit "a", DScal (SInt KUInt8 1))]))
  /\ parses X h (object_text [(lit "k", lit "{""a"":1}")]) (GVal (DMap [(lit "k", DMap [(lit "a", DScal (SInt KUInt8 1))])]))
  /\ Parse X (object_text [(lit "k", lit "{""a"":1}{""b"":2}")]) h = Panic
  /\ parses X h (object_text [(lit "k", array_text [lit "{""a"":1}"])]) (GVal (DMap [(lit "k", DArr [DMap [(lit "a", DScal (SInt KUInt8 1))]])]))
  /\ parses X h (object_text [(lit "k", array_text [lit "{""a"":1}{""b"":2}"])])
       (GVal (DMap [(lit "k", DArr [DMap [(lit "a", DScal (SInt KUInt8 1))]; DMap [(lit "b", DScal (SInt KUInt8 2))]])])).
Proof.
  intros R. repeat split; try (apply parses_tree; [exact R|vm_compute; reflexivity]).
  apply parse_panic; [exact R|vm_compute; reflexivity].
Qed.
