(** * Every unquoted scalar of a text *)
From Coq Require Import Ascii String List NArith ZArith Bool Lia.
From Verif Require Import GoStr GoNum GoFloat Heap Common ValueModel ArrayModel MapModel JsonModel ParserModel
  StrLemmas SpecDict SpecNum NumLemmas SpecFloat FloatFacts SpecDoc SpecText SpecToken SpecParse SpecPanic PanicFacts SpecWorld Inv World Reach
  TreeParser TextRun TokenFacts ParseTop ParseFacts SpecScalar ScalarFacts ScalarRun.
Import ListNotations.
Local Arguments space_byte : simpl never.

Lemma drop_spaces a u : Forall (fun c => space_byte c = true) a -> drop_blanks (a ++ u) = drop_blanks u.
Proof. induction 1 as [|c a H F IH]; auto. cbn [app drop_blanks]. now rewrite H. Qed.

Lemma drop_head u : (forall c v, u = c :: v -> space_byte c = false) -> drop_blanks u = u.
Proof. destruct u as [|c u]; auto. intros H. cbn. now rewrite (H c u eq_refl). Qed.

Lemma drop_split p : exists a, p = a ++ drop_blanks p /\ Forall (fun c => space_byte c = true) a
  /\ forall c v, drop_blanks p = c :: v -> space_byte c = false.
Proof.
  induction p as [|c p (a & E & F & H)]; [exists []; repeat split; auto; discriminate|]. cbn [drop_blanks].
  destruct (space_byte c) eqn:B.
  - exists (c :: a). cbn [app]. repeat split; auto. now f_equal.
  - exists []. repeat split; auto. intros d v E'. now inversion E'; subst.
Qed.

Lemma trimmed_strip t u : trimmed t u <-> strip t = u.
Proof.
  split.
  - intros (a & b & -> & F & H). apply Forall_app in F as [Fa Fb]. unfold strip. rewrite drop_spaces by auto.
    destruct u as [|c u].
    + cbn [app]. rewrite <- (app_nil_r b), drop_spaces by auto. reflexivity.
    + rewrite (drop_head ((c :: u) ++ b)) by (intros d v E; cbn in E; inversion E; subst; exact (proj1 (H d) u eq_refl)).
      rewrite rev_app_distr, drop_spaces by (now apply Forall_rev).
      rewrite drop_head; [apply rev_involutive|]. intros d v E. apply (proj2 (H d) (rev v)).
      rewrite <- (rev_involutive (c :: u)), E. reflexivity.
  - intros <-. unfold strip. destruct (drop_split t) as (a & E & F & H).
    destruct (drop_split (rev (drop_blanks t))) as (b & E' & F' & H').
    exists a, (rev b). split; [|split].
    + rewrite <- rev_app_distr, <- E', rev_involutive. exact E.
    + apply Forall_app. split; auto. now apply Forall_rev.
    + intros c. split.
      * intros v Ev. assert (D : drop_blanks t = rev (drop_blanks (rev (drop_blanks t))) ++ rev b).
        { rewrite <- rev_app_distr, <- E'. now rewrite rev_involutive. }
        rewrite Ev in D. cbn in D. eapply H, D.
      * intros v Ev. apply (f_equal (@rev ascii)) in Ev. rewrite rev_involutive, rev_app_distr in Ev. eapply H', Ev.
Qed.

Lemma ignored_lo c : ignored c = true -> utf8_of_byte c = [c].
Proof.
  unfold ignored. cbn [existsb]. intros H. repeat (apply orb_true_iff in H as [H|H]; [apply Ascii.eqb_eq in H; subst; reflexivity|]). discriminate.
Qed.

Lemma ignored_hi a : (128 <= N_of_ascii a)%N -> ignored a = false.
Proof.
  intros L. destruct (ignored a) eqn:H; auto. exfalso. unfold ignored in H. cbn [existsb] in H.
  repeat (apply orb_true_iff in H as [H|H]; [apply Ascii.eqb_eq in H; subst; vm_compute in L; auto|]). discriminate.
Qed.

Lemma squeeze_latin1 u : squeeze (utf8_str u) = utf8_str (squeeze u).
Proof.
  induction u as [|c u IH]; auto. rewrite utf8_str_cons. unfold squeeze. rewrite filter_app. fold (squeeze (utf8_str u)). rewrite IH.
  cbn [filter]. destruct (utf8_case c) as [(E & L & B)|(a & b & E & La & Lb & B)].
  - rewrite E. cbn [filter]. destruct (ignored c); cbn [negb app]; auto. rewrite utf8_str_cons, E. reflexivity.
  - rewrite E. cbn [filter]. rewrite (ignored_hi a), (ignored_hi b) by lia. cbn [negb app].
    assert (ignored c = false) as -> by (destruct (ignored c) eqn:I; auto; apply ignored_lo in I; congruence).
    cbn [negb]. rewrite utf8_str_cons, E. reflexivity.
Qed.

Lemma utf8_nodq p : ~ In c_dq p -> ~ In c_dq (utf8_str p).
Proof.
  induction p as [|c p IH]; auto. intros N I. rewrite utf8_str_cons in I. apply in_app_or in I as [I|I].
  - destruct (utf8_case c) as [(E & L & B)|(a & b & E & La & Lb & B)]; rewrite E in I.
    + apply N. left. now destruct I as [I|[]].
    + destruct I as [I|[I|[]]]; [rewrite I in La; destruct La as [La _]; now apply La|rewrite I in Lb; destruct Lb as [Lb _]; now apply Lb].
  - apply IH in I; auto. intros J. apply N. now right.
Qed.

Lemma strip_incl p c : In c (strip p) -> In c p.
Proof.
  destruct (proj2 (trimmed_strip p (strip p)) eq_refl) as (a & b & E & _). intros I. rewrite E. apply in_or_app. right. apply in_or_app. now left.
Qed.

Lemma T0_reads t r : ~ In c_dq t -> (scalar_means t r <-> T0 t = r).
Proof.
  intros N. unfold T0, tok_model, clean. fold (unesc (trim_space (latin1 t))). rewrite latin1_utf8, trim_space_utf8.
  rewrite unesc_nodq by (apply utf8_nodq; intros I; now apply strip_incl in I).
  unfold scalar_token. rewrite strip_squeeze, squeeze_latin1, <- latin1_utf8.
  fold (scalar_of (latin1 (squeeze (strip t)))). fold (tok_of (scalar_of (latin1 (squeeze (strip t))))).
  rewrite <- reads_iff. unfold scalar_means. split.
  - intros (u & Hu & H). apply trimmed_strip in Hu. now subst.
  - intros H. exists (strip t). split; auto. now apply trimmed_strip.
Qed.

Lemma scalar_total t : exists r, scalar_means t r.
Proof.
  destruct (reads_total (latin1 (squeeze (strip t)))) as (r & H). exists r, (strip t). split; auto. now apply trimmed_strip.
Qed.

Lemma scalar_fun t r r' : scalar_means t r -> scalar_means t r' -> r = r'.
Proof.
  intros (u & H1 & H2) (u' & H1' & H2'). apply trimmed_strip in H1, H1'. subst. eapply reads_fun; eauto.
Qed.

Lemma tok_nodq t : token_ok false t -> ~ In c_dq t.
Proof.
  intros [F _] I. rewrite Forall_forall in F. destruct (F _ I) as [H _]. apply H. unfold structural. tauto.
Qed.

Lemma tokens_nodq :
  (forall v, text_ok false v -> forall t, In t (tokens v) -> ~ In c_dq t)
  /\ (forall l, elems_ok false l -> forall t, In t (tokens_elems l) -> ~ In c_dq t)
  /\ (forall l, members_ok false l -> forall t, In t (tokens_members l) -> ~ In c_dq t).
Proof.
  apply jtext_combined; cbn [text_ok elems_ok members_ok tokens tokens_elems tokens_members].
  - intros t OK t' [<-|[]]. now apply tok_nodq.
  - intros b _ t [].
  - auto.
  - auto.
  - intros b _ t [].
  - intros pre v IV post comma rest IR (A & B & C & D & E) t I. apply in_app_or in I as [I|I]; auto.
  - intros b _ t [].
  - intros pre k mid pre2 v IV post comma rest IR (A & B & C & D & E & F & G & H) t I. apply in_app_or in I as [I|I]; auto.
Qed.

(** Every text of the grammar, whatever its scalars. *)
Theorem parse_scalars X h l T : reachable X h -> members_ok false l ->
  (forall t, In t (tokens_members l) -> scalar_means t (T t)) ->
  parses X h (text_of (JMap l)) (outcome T l).
Proof.
  intros R OK M. apply parses_tree; auto. apply tparse_text; auto.
  apply Forall_forall. intros t I post B. rewrite (T0_agrees t post B). apply T0_reads; auto.
  eapply (proj2 (proj2 tokens_nodq)); eauto.
Qed.

Theorem scalars_outcome X h l r : reachable X h -> members_ok false l ->
  (parses X h (text_of (JMap l)) r
   <-> exists T, (forall t, In t (tokens_members l) -> scalar_means t (T t)) /\ r = outcome T l).
Proof.
  intros R OK. split.
  - intros P. exists T0. split.
    + intros t I. apply T0_reads; auto. eapply (proj2 (proj2 tokens_nodq)); eauto.
    + eapply parses_fun; [exact P|]. now apply parse_any.
  - intros (T & M & ->). now apply parse_scalars.
Qed.

Theorem scalar_member X h k t d : reachable X h -> body_ok k -> token_ok false t ->
  (parses X h (text_of (JMap (MCons [] k [] [] (JTok t) [] false (MNil [])))) (GVal (DMap [(unescape (latin1 k), d)]))
   <-> scalar_means t (TokDoc d)).
Proof.
  intros R K OK.
  assert (M : members_ok false (MCons [] k [] [] (JTok t) [] false (MNil []))).
  { cbn [members_ok text_ok is_token]. split; [constructor|]. split; auto. split; [constructor|]. split; [constructor|]. split; auto.
    split; [constructor|]. split; [|constructor]. intros _. right. auto. }
  rewrite scalars_outcome by auto. split.
  - intros (T & H & E). unfold outcome in E. cbn in E. specialize (H t (or_introl eq_refl)).
    destruct (T t) as [|d'|[|? ?]]; cbn in E; inversion E; subst; auto.
  - intros H. exists (fun _ => TokDoc d). split; [|reflexivity]. intros t' [<-|[]]. exact H.
Qed.

(** ** Examples *)

Lemma split_one (s : str) (P : str -> str -> Prop) :
  Forall (fun n => nth_error s n = Some c_us -> P (firstn n s) (skipn (S n) s)) (seq 0 (length s)) ->
  forall a b, s = a ++ c_us :: b -> P a b.
Proof.
  intros F a b ->. rewrite Forall_forall in F. specialize (F (length a)).
  rewrite app_length in F. assert (I : In (length a) (seq 0 (length a + length (c_us :: b)))) by (apply in_seq; cbn; lia).
  specialize (F I). rewrite nth_error_app2, Nat.sub_diag in F by lia. specialize (F eq_refl).
  rewrite firstn_app, Nat.sub_diag, firstn_all in F. cbn [firstn] in F. rewrite app_nil_r in F.
  replace (skipn (S (length a)) (a ++ c_us :: b)) with b in F; auto.
  rewrite skipn_app, skipn_all2 by lia. replace (S (length a) - length a) with 1 by lia. reflexivity.
Qed.

Lemma ex_underscore :
  point_number (lit "1_2.5") 125 10
  /\ text_of (JMap (MCons [] (lit "k") [] [] (JTok (lit "1_2.5")) [] false (MNil []))) = lit "{""k"":1_2.5}"
  /\ body_ok (lit "k") /\ token_ok false (lit "1_2.5").
Proof.
  assert (D : forall c, In c (lit "0123456789") -> digit_in false c).
  { intros c I. left. cbn in I. repeat (destruct I as [<-|I]; [split; vm_compute; discriminate|]). destruct I. }
  split; [|split; [reflexivity|split]].
  - apply (pn_decimal (lit "1_2.5") (lit "12") (lit "5") [] 0).
    + split; [reflexivity|]. split; [|discriminate]. repeat (apply Forall_cons; [apply D; cbn; tauto|]); apply Forall_nil.
    + auto.
    + unfold separated. apply split_one. cbn.
      repeat (apply Forall_cons; [intros Hn; try discriminate Hn; split; apply D; cbn; tauto|]); apply Forall_nil.
  - split; [intros [|? [|? ?]] v E|intros [|? [|? ?]] E]; cbn in E; inversion E.
  - split; [|split; [intros [H|[H|[H|H]]]; discriminate|discriminate]].
    repeat (apply Forall_cons; [split; [intros H; unfold structural in H; intuition discriminate|discriminate]|]); apply Forall_nil.
Qed.

Lemma ex_forms :
  Forall (fun p => scalar_means (fst p) (snd p))
    [(lit "1_2.5", TokDoc (DScal (SFlt F32 (FFin false 13107200 (-20)))));
     (lit "0x1.8p1", TokDoc (DScal (SFlt F32 (FFin false 12582912 (-22)))));
     (lit "+.5", TokDoc (DScal (SFlt F32 (FFin false 8388608 (-24)))));
     (lit "5.", TokDoc (DScal (SFlt F32 (FFin false 10485760 (-21)))));
     (lit "0x1.8", TokErr [EFloatSyn]);
     (lit "1__2.5", TokErr [EFloatSyn]);
     (lit "1.5e-3", TokErr [ENegPos]);
     (lit "1.5e999", TokErr [EFloatSyn]);
     (lit "1e5", TokErr [EUintSyn]);
     (lit "+1", TokErr [EUintSyn]);
     (lit "1 2", TokDoc (DScal (SInt KUInt8 12)))].
Proof.
  repeat (constructor; [apply T0_reads; [intros H; cbn in H; intuition discriminate|vm_compute; reflexivity]|]). constructor.
Qed.
