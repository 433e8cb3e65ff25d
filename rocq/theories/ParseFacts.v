(** * Facts about Parse on texts *)
From Coq Require Import Ascii String List NArith ZArith Bool Lia.
From Verif Require Import GoStr GoNum GoFloat Heap Common ValueModel ArrayModel MapModel JsonModel ParserModel
  StrLemmas SpecDict DictLemmas SpecNum NumLemmas SpecWorld Inv World Reach SpecFloat FloatFacts SpecDoc RepFacts
  SpecText SpecToken TreeParser ParseWorld ParseRefine ParseTop TextRun TokenFacts SpecParse.
Import ListNotations.

Lemma parses_tree X h s r :
  reachable X h ->
  tparse s = Ok (match r with GVal d => GVal (Some d) | GErr e => GErr e end) -> parses X h s r.
Proof.
  intros R E. pose proof (parse_refines X h s R) as P. rewrite E in P.
  assert (U : forall h', same_below (length h) (view h) (view h') -> unchanged h h').
  { intros h' [A B C D] l L. rewrite A, B, C, D by auto. auto. }
  destruct r as [d|e]; cbn [parse_result parses] in *.
  - destruct P as (h' & m & P1 & P2 & P3 & P4 & P5). exists h', m. auto 7.
  - destruct P as (P0 & h' & P1 & P2 & P3). split; auto. exists h'. auto.
Qed.

(** ** Trailing blanks of a token *)

Lemma blank_lo c : blank c -> is_space1 c = true /\ (N_of_ascii c < 128)%N.
Proof. intros [->|[->|[->| ->]]]; split; reflexivity. Qed.

Lemma is_space2_blank a b : blank b -> is_space2 a b = false.
Proof. intros [->|[->|[->| ->]]]; destruct a as [[] [] [] [] [] [] [] []]; reflexivity. Qed.
Lemma is_space3_blank2 a b c : blank b -> is_space3 a b c = false.
Proof.
  intros [->|[->|[->| ->]]]; unfold is_space3; destruct a as [[] [] [] [] [] [] [] []]; reflexivity.
Qed.
Lemma is_space3_blank3 a b c : blank c -> is_space3 a b c = false.
Proof.
  intros [->|[->|[->| ->]]]; destruct a as [[] [] [] [] [] [] [] []]; try reflexivity;
    destruct b as [[] [] [] [] [] [] [] []]; reflexivity.
Qed.

Lemma trim_left_blanks b : blanks b -> trim_left b = [].
Proof. induction 1 as [|c t H _ IH]; auto. cbn. now rewrite (proj1 (blank_lo c H)). Qed.

Lemma trim_left_post s b : blanks b ->
  trim_left (s ++ b) = match trim_left s with [] => [] | _ => trim_left s ++ b end.
Proof.
  intros B. assert (G : forall n s, length s <= n ->
    trim_left (s ++ b) = match trim_left s with [] => [] | _ => trim_left s ++ b end).
  { clear s. induction n as [|n IH]; intros s L.
    - destruct s; [|cbn in L; lia]. cbn. now apply trim_left_blanks.
    - destruct s as [|p t]; [cbn; now apply trim_left_blanks|]. cbn [app trim_left]. cbn [length] in L.
      destruct (is_space1 p) eqn:E1; [apply IH; lia|].
      destruct t as [|q t2]; cbn [app].
      { destruct b as [|x b']; auto. inversion B; subst. rewrite is_space2_blank by auto.
        destruct b' as [|y b'']; auto. rewrite is_space3_blank2; auto. }
      cbn [length] in L. destruct (is_space2 p q) eqn:E2; [apply IH; lia|].
      destruct t2 as [|u t3]; cbn [app].
      { destruct b as [|x b']; auto. inversion B; subst. rewrite is_space3_blank3; auto. }
      cbn [length] in L. destruct (is_space3 p q u) eqn:E3; [apply IH; lia|reflexivity]. }
  eauto.
Qed.

Lemma trim_right_blanks b s : blanks b -> trim_right_rev (b ++ s) = trim_right_rev s.
Proof. induction 1 as [|c t H _ IH]; auto. cbn. now rewrite (proj1 (blank_lo c H)). Qed.

Lemma trim_space_post s b : blanks b -> trim_space (s ++ b) = trim_space s.
Proof.
  intros B. unfold trim_space. rewrite trim_left_post by auto. destruct (trim_left s) as [|x t]; auto.
  f_equal. rewrite rev_app_distr, trim_right_blanks; auto. unfold blanks. now apply Forall_rev.
Qed.

Lemma latin1_blanks b : blanks b -> latin1 b = b.
Proof.
  intros B. rewrite latin1_utf8. apply utf8_str_ascii. eapply Forall_impl; [|apply B]. intros c H.
  now apply blank_lo.
Qed.

(** What the model makes of a token. *)
Definition T0 (t : str) : tokres := tok_model (latin1 t).

Lemma T0_agrees t : tok_agrees T0 t.
Proof.
  intros post B. unfold T0, tok_model, clean. rewrite latin1_app, (latin1_blanks post B).
  now rewrite trim_space_post.
Qed.

(** ** All lenient texts *)

Lemma parse_any X h l : reachable X h -> members_ok false l -> parses X h (text_of (JMap l)) (outcome T0 l).
Proof.
  intros R OK. apply parses_tree; auto. apply tparse_text; auto.
  apply Forall_forall. intros t _. apply T0_agrees.
Qed.

Lemma means_T0 t r : token_means t r -> T0 t = r.
Proof. intros H. unfold T0. rewrite <- (app_nil_r t). apply token_means_model; auto. constructor. Qed.

Lemma parse_text X h l T : reachable X h -> members_ok false l ->
  (forall t, In t (tokens_members l) -> token_means t (T t)) ->
  parses X h (text_of (JMap l)) (outcome T l).
Proof.
  intros R OK M. apply parses_tree; auto. apply tparse_text; auto.
  apply Forall_forall. intros t I post B. apply token_means_model; auto.
Qed.

(** ** Strict texts are lenient texts *)

Lemma printable_nblank c : printable c -> ~ blank c.
Proof. intros [H _] [->|[->|[->| ->]]]; cbn in H; lia. Qed.

Lemma blanks_gap s : blanks s -> gap false s.
Proof. intros H. eapply Forall_impl; [|apply H]. intros c B. now apply blank_nstruct. Qed.
Lemma blanks_gap_colon s : blanks s -> gap_colon false s.
Proof.
  intros H. eapply Forall_impl; [|apply H]. intros c B. destruct (blank_nstruct c B). auto using blank_ncol.
Qed.

Lemma comma_strict tok c last te : comma_ok true tok c last te -> comma_ok false tok c last te.
Proof. intros [-> H] _. destruct last; [right; auto|left; reflexivity]. Qed.

Lemma strict_lenient_all :
  (forall v, text_ok true v -> text_ok false v) /\ (forall l, elems_ok true l -> elems_ok false l)
  /\ (forall l, members_ok true l -> members_ok false l).
Proof.
  apply jtext_combined; cbn [text_ok elems_ok members_ok].
  - intros t [A [B C]]. split; auto. destruct t as [|c t]; auto. inversion C as [|? ? [P Q] _]; subst.
    split; auto. now apply printable_nblank.
  - auto.
  - auto.
  - auto.
  - auto.
  - intros pre v IV post comma rest IR (A & B & C & D & E). repeat split; auto. now apply comma_strict.
  - intros b H. now apply blanks_gap.
  - intros pre k mid pre2 v IV post comma rest IR (A & B & C & D & E & F & G & H).
    split; [now apply blanks_gap|]. split; [auto|]. split; [now apply blanks_gap_colon|].
    split; [auto|]. split; [auto|]. split; [destruct (is_token v); auto; now apply blanks_gap|].
    split; [now apply comma_strict|auto].
Qed.
Lemma strict_lenient l : members_ok true l -> members_ok false l.
Proof. apply strict_lenient_all. Qed.

Lemma strict_plain_all :
  (forall v, text_ok true v -> Forall (Forall plain) (tokens v))
  /\ (forall l, elems_ok true l -> Forall (Forall plain) (tokens_elems l))
  /\ (forall l, members_ok true l -> Forall (Forall plain) (tokens_members l)).
Proof.
  apply jtext_combined; cbn [text_ok elems_ok members_ok tokens tokens_elems tokens_members]; auto.
  - intros t [A [B C]]. constructor; [|constructor]. eapply Forall_impl; [|apply C]. intros c [H _]. now right.
  - intros pre v IV post comma rest IR (A & B & C & D & E). apply Forall_app. auto.
  - intros pre k mid pre2 v IV post comma rest IR (A & B & C & D & E & F & G & H). apply Forall_app. auto.
Qed.
Lemma strict_plain l : members_ok true l -> plain_tokens l.
Proof. apply strict_plain_all. Qed.

(** ** Meanings depend on the tokens only *)

Lemma value_of_ext_all T T' :
  (forall v, (forall t, In t (tokens v) -> T t = T' t) -> value_of T v = value_of T' v)
  /\ (forall l, (forall t, In t (tokens_elems l) -> T t = T' t) -> elems_of T l = elems_of T' l)
  /\ (forall l, (forall t, In t (tokens_members l) -> T t = T' t) -> forall ms, members_of T ms l = members_of T' ms l).
Proof.
  apply jtext_combined; cbn [tokens tokens_elems tokens_members].
  - intros t H. rewrite !value_of_JTok, H; auto. now left.
  - reflexivity.
  - intros l IH H. rewrite !value_of_JArr, IH; auto.
  - intros l IH H. rewrite !value_of_JMap, IH; auto.
  - reflexivity.
  - intros pre v IV post comma rest IR H. rewrite !elems_of_ECons, IV, IR; auto; intros; apply H, in_app_iff; auto.
  - reflexivity.
  - intros pre k mid pre2 v IV post comma rest IR H ms. rewrite !members_of_MCons, IV.
    + destruct (value_of T' v) as [d e]. rewrite IR; auto. intros; apply H, in_app_iff; auto.
    + intros; apply H, in_app_iff; auto.
Qed.

Lemma outcome_ext T T' l : (forall t, In t (tokens_members l) -> T t = T' t) -> outcome T l = outcome T' l.
Proof. intros H. unfold outcome. now rewrite (proj2 (proj2 (value_of_ext_all T T')) l H). Qed.

(** ** Blanks (C04) *)

Scheme same_text_mut := Induction for same_text Sort Prop
  with same_elems_mut := Induction for same_elems Sort Prop
  with same_members_mut := Induction for same_members Sort Prop.
Combined Scheme same_combined from same_text_mut, same_elems_mut, same_members_mut.

Lemma same_value T :
  (forall v v', same_text v v' -> value_of T v = value_of T v' /\ forall k, key_of k v = key_of k v')
  /\ (forall l l', same_elems l l' -> elems_of T l = elems_of T l')
  /\ (forall l l', same_members l l' -> forall ms, members_of T ms l = members_of T ms l').
Proof.
  apply same_combined.
  - auto.
  - auto.
  - intros l l' _ IH. rewrite !value_of_JArr, IH. auto.
  - intros l l' _ IH. rewrite !value_of_JMap, IH. auto.
  - auto.
  - intros. destruct H as [H _]. rewrite !elems_of_ECons, H, H0. auto.
  - auto.
  - intros. destruct H as [H K]. rewrite !members_of_MCons, H, K. destruct (value_of T v') as [d e]. now rewrite H0.
Qed.

Lemma parse_blanks X h l l' :
  reachable X h -> members_ok false l -> members_ok false l' -> same_members l l' ->
  exists r, parses X h (text_of (JMap l)) r /\ parses X h (text_of (JMap l')) r.
Proof.
  intros R A B S. exists (outcome T0 l). split; [now apply parse_any|].
  unfold outcome. rewrite (proj2 (proj2 (same_value T0)) l l' S). now apply parse_any.
Qed.

(** ** Errors (C11) *)

Lemma errs_all T :
  (forall v, snd (value_of T v) = flat_map (fun t => tok_errs (T t)) (tokens v))
  /\ (forall l, snd (elems_of T l) = flat_map (fun t => tok_errs (T t)) (tokens_elems l))
  /\ (forall l ms, snd (members_of T ms l) = flat_map (fun t => tok_errs (T t)) (tokens_members l)).
Proof.
  apply jtext_combined; cbn [tokens tokens_elems tokens_members].
  - intros t. rewrite value_of_JTok. cbn. rewrite app_nil_r. now destruct (T t).
  - reflexivity.
  - intros l IH. rewrite value_of_JArr. now destruct (elems_of T l).
  - intros l IH. rewrite value_of_JMap. rewrite <- (IH []). now destruct (members_of T [] l).
  - reflexivity.
  - intros pre v IV post comma rest IR. rewrite elems_of_ECons, flat_map_app, <- IV, <- IR.
    destruct (value_of T v) as [d e], (elems_of T rest) as [ds e']. reflexivity.
  - reflexivity.
  - intros pre k mid pre2 v IV post comma rest IR ms. rewrite members_of_MCons, flat_map_app, <- IV.
    destruct (value_of T v) as [d e].
    rewrite <- (IR (match d with Some x => dict_set ms (key_of k v) x | None => ms end)).
    destruct (members_of T _ rest) as [ms' e']. reflexivity.
Qed.

Lemma outcome_errs T l :
  match outcome T l with
  | GVal _ => scalar_errs T l = []
  | GErr e => e = scalar_errs T l /\ e <> []
  end.
Proof.
  unfold outcome, scalar_errs. rewrite <- (proj2 (proj2 (errs_all T)) l []).
  destruct (members_of T [] l) as [ms [|e es]]; cbn; auto. split; auto. discriminate.
Qed.

(** ** Documents of objects are unique *)

Scheme rep_obj_mut := Minimality for rep_obj Sort Prop
  with rep_value_mut := Minimality for rep_value Sort Prop
  with rep_elems_mut := Minimality for rep_elems Sort Prop
  with rep_members_mut := Minimality for rep_members Sort Prop.
Combined Scheme rep_combined from rep_obj_mut, rep_value_mut, rep_elems_mut, rep_members_mut.

Lemma rep_fun tn w F F' :
  (forall i d, rep_obj tn w F i d -> forall d', rep_obj tn w F' i d' -> d = d')
  /\ (forall o d, rep_value tn w F o d -> forall d', rep_value tn w F' o d' -> d = d')
  /\ (forall l ds, rep_elems tn w F l ds -> forall ds', rep_elems tn w F' l ds' -> ds = ds')
  /\ (forall l ds, rep_members tn w F l ds -> forall ds', rep_members tn w F' l ds' -> ds = ds').
Proof.
  apply rep_combined.
  - intros d' H. inversion H; subst; auto; intuition discriminate.
  - intros i A B d' H. inversion H; subst; auto; cbn in B; try discriminate;
      intuition (subst; discriminate).
  - intros s d' H. inversion H; subst; auto; try discriminate; intuition discriminate.
  - intros t p s A B C d' H. inversion H; subst; auto; try discriminate; try congruence; intuition discriminate.
  - intros l d' H. inversion H; subst; auto; try discriminate; try (intuition discriminate);
      match goal with Q : map Plain _ = map Plain _ |- _ => apply map_Plain_inj in Q; now subst end.
  - intros e s Es d' H. inversion H; subst; auto; try discriminate; try (intuition discriminate).
    f_equal. destruct Es as [->|[n ->]]; match goal with Q : _ \/ (exists _, _) |- _ => destruct Q as [Q|[n' Q]] end; congruence.
  - intros l d' H. inversion H; subst; auto; try discriminate; try (intuition discriminate);
      match goal with Q : map Plain _ = map Plain _ |- _ => apply map_Plain_inj in Q; now subst end.
  - intros l d' H. inversion H; subst; auto; try discriminate; try (intuition discriminate);
      match goal with Q : map Plain _ = map Plain _ |- _ => apply map_Plain_inj in Q; now subst end.
  - intros l d' H. inversion H; subst; auto; try discriminate; try (intuition discriminate);
      match goal with Q : map Plain _ = map Plain _ |- _ => apply map_Plain_inj in Q; now subst end.
  - intros l d' H. inversion H; subst; auto; try discriminate; try (intuition discriminate);
      match goal with Q : map Plain _ = map Plain _ |- _ => apply map_Plain_inj in Q; now subst end.
  - intros i m d es [->| ->] A B _ IH d' H; inversion H; subst; try discriminate;
      match goal with H : _ \/ _ |- _ => destruct H as [Q|Q]; inversion Q; subst end;
      f_equal; apply IH; congruence.
  - intros i m d es [->| ->] A B _ IH d' H; inversion H; subst; try discriminate;
      match goal with H : _ \/ _ |- _ => destruct H as [Q|Q]; inversion Q; subst end;
      f_equal; apply IH; congruence.
  - intros _ d' H. inversion H; auto.
  - intros v i d A B _ IH d' H. inversion H; subst. apply IH. congruence.
  - intros d' H. inversion H; auto.
  - intros o d l ds _ IH1 _ IH2 d' H. inversion H; subst. f_equal; auto.
  - intros d' H. inversion H; auto.
  - intros k o d l ds _ IH1 _ IH2 d' H. inversion H; subst. f_equal; auto. f_equal; auto.
Qed.

Lemma rep_obj_fun tn w F F' i d d' : rep_obj tn w F i d -> rep_obj tn w F' i d' -> d = d'.
Proof. intros H. now apply (proj1 (rep_fun tn w F F') i d H). Qed.

Lemma parses_fun X h s r r' : parses X h s r -> parses X h s r' -> r = r'.
Proof.
  intros A B. destruct r as [d|e], r' as [d'|e']; cbn in A, B.
  - destruct A as (h1 & m1 & E1 & _ & _ & D1 & _), B as (h2 & m2 & E2 & _ & _ & D2 & _).
    rewrite E1 in E2. inversion E2; subst. f_equal. eapply rep_obj_fun; eauto.
  - destruct A as (h1 & m1 & E1 & _), B as (_ & h2 & E2 & _). congruence.
  - destruct A as (_ & h1 & E1 & _), B as (h2 & m2 & E2 & _). congruence.
  - destruct A as (_ & h1 & E1 & _), B as (_ & h2 & E2 & _). congruence.
Qed.
