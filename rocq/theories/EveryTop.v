(** * What Parse makes of every text *)
From Coq Require Import Ascii String List NArith ZArith Bool Lia.
From Verif Require Import GoStr GoNum GoFloat Heap Common ValueModel ArrayModel MapModel JsonModel ParserModel
  StrLemmas SpecDict SpecNum NumLemmas SpecFloat FloatFacts SpecDoc SpecText SpecToken SpecParse SpecPanic SpecWorld Inv World Reach
  TreeParser TextRun TokenFacts ParseTop ParseFacts TidyFacts ParseMore PanicFacts OriginFacts SpecScalar ScalarFacts ScalarRun ScalarTop
  SpecEvery EveryFacts ExampleState.
Import ListNotations.
Local Arguments space_byte : simpl never.

(** ** A function that meets [value_means] *)
Definition denote (v : str) : tokres :=
  let u := unescape (latin1 (strip v)) in
  if contains_byte c_dq u then
    if is_quoted u then match slice_inner u with Some b => TokDoc (DScal (SStr b)) | None => TokErr [EValQuote] end
    else TokErr [EValQuote]
  else tok_of (scalar_of (squeeze u)).

Lemma denote_means v : value_means v (denote v).
Proof.
  assert (Tr : trimmed v (strip v)) by now apply trimmed_strip. unfold denote. cbv zeta.
  destruct (contains_byte c_dq (unescape (latin1 (strip v)))) eqn:C.
  - apply contains_byte_In in C. destruct (is_quoted (unescape (latin1 (strip v)))) eqn:Q.
    + destruct (slice_inner (unescape (latin1 (strip v)))) as [b|] eqn:S.
      * eapply vm_string; [exact Tr|]. now apply slice_quoted_eq in S.
      * eapply vm_quote; [exact Tr|exact C|]. intros b E. apply slice_inner_none in S; auto.
        rewrite S in E. destruct b; discriminate.
    + eapply vm_quote; [exact Tr|exact C|]. intros b E. rewrite E in Q.
      change (c_dq :: b ++ [c_dq]) with (quoted b) in Q. rewrite is_quoted_quoted in Q. discriminate.
  - eapply vm_scalar; [exact Tr| |now apply reads_iff]. intros I. apply contains_byte_In in I. congruence.
Qed.

Lemma verdict_parses X h s V : reachable X h -> panics_on s = false ->
  (forall v, In (Holds v) (events s) -> value_means v (V v)) -> parses X h s (verdict V s).
Proof.
  intros R P Vm. pose proof (verdict_tparse V s P Vm) as T. apply parses_tree; auto. rewrite T.
  destruct (verdict V s) as [d|[|e es]]; auto. pose proof (parse_refines X h s R) as Q. rewrite T in Q. contradiction.
Qed.

Lemma parses_no_panic X h s r : reachable X h -> parses X h s r -> panics_on s = false.
Proof.
  intros R H. destruct (panics_on s) eqn:P; auto. apply (parse_panics_iff X h s R) in P.
  destruct r as [d|e]; cbn in H; [destruct H as (h' & m & E & _)|destruct H as (_ & h' & E & _)]; congruence.
Qed.

Theorem every_outcome X h s r : reachable X h ->
  (parses X h s r
   <-> panics_on s = false
       /\ exists V, (forall v, In (Holds v) (events s) -> value_means v (V v)) /\ r = verdict V s).
Proof.
  intros R. split.
  - intros H. pose proof (parses_no_panic X h s r R H) as P. split; auto. exists denote. split; [intros; apply denote_means|].
    eapply parses_fun; [exact H|]. apply verdict_parses; auto. intros; apply denote_means.
  - intros (P & V & Vm & ->). now apply verdict_parses.
Qed.

(** ** Which texts are accepted *)

Definition dep (n : nat) (l : list event) : nat :=
  fold_left (fun n e => match e with Opens _ => S n | Closes => pred n | _ => n end) l n.

Lemma put_depth V w e : length (w_open (put_event V w e)) = dep (length (w_open w)) [e].
Proof.
  destruct w as [o nm top es]. destruct e; cbn; auto.
  - destruct o as [|[c n] o]; auto. cbn. destruct (V v); reflexivity.
  - destruct o as [|[c n] [|[c' n'] o]]; reflexivity.
Qed.

Lemma puts_depth V l : forall w, length (w_open (fold_left (put_event V) l w)) = dep (length (w_open w)) l.
Proof. induction l as [|e l IH]; intros w; cbn [fold_left]; auto. rewrite IH, put_depth. reflexivity. Qed.

Lemma dep_app n a b : dep n (a ++ b) = dep (dep n a) b.
Proof. unfold dep. apply fold_left_app. Qed.

Lemma put_errs V w e : exists x, w_errs (put_event V w e) = w_errs w ++ x
  /\ (x = [] <-> forall v, e = Holds v -> (0 < length (w_open w))%nat /\ forall y, V v = TokErr y -> y = []).
Proof.
  destruct w as [o nm top es]. destruct e; cbn.
  - exists []. rewrite app_nil_r. split; auto. split; auto. intros _ v [=].
  - exists []. rewrite app_nil_r. split; auto. split; auto. intros _ v [=].
  - destruct o as [|[c n] o].
    + exists [EListEmpty]. split; auto. split; [discriminate|]. intros H. destruct (H v eq_refl) as [L _]. cbn in L. lia.
    + cbn. destruct (V v) as [|d|e] eqn:E; cbn.
      * exists []. rewrite app_nil_r. split; auto. split; auto. intros _ v' [= <-]. split; [lia|]. rewrite E. discriminate.
      * exists []. rewrite app_nil_r. split; auto. split; auto. intros _ v' [= <-]. split; [lia|]. rewrite E. discriminate.
      * exists e. split; auto. split.
        -- intros -> v' [= <-]. split; [lia|]. rewrite E. congruence.
        -- intros H. destruct (H v eq_refl) as [_ H']. now apply H'.
  - exists []. destruct o as [|[c n] [|[c' n'] o]]; cbn; rewrite app_nil_r; (split; [reflexivity|split; auto; intros _ v [=]]).
Qed.

Lemma puts_errs V l : forall w, w_errs w = [] ->
  (w_errs (fold_left (put_event V) l w) = []
   <-> forall a v b, l = a ++ Holds v :: b -> (0 < dep (length (w_open w)) a)%nat /\ forall y, V v = TokErr y -> y = []).
Proof.
  induction l as [|e l IH]; intros w E; cbn [fold_left].
  - split; auto. intros _ [|? ?] v b [=].
  - destruct (put_errs V w e) as (x & Ex & Hx). rewrite E in Ex. cbn [app] in Ex.
    destruct x as [|y ys].
    + rewrite (IH _ Ex). rewrite put_depth. split.
      * intros H [|e' a] v b [= -> ->].
        -- cbn. now apply Hx.
        -- apply (H a v b eq_refl).
      * intros H a v b ->. apply (H (e :: a) v b eq_refl).
    + assert (N : forall m w', w_errs w' <> [] -> w_errs (fold_left (put_event V) m w') <> []).
      { induction m as [|f m IHm]; intros w' Hw; auto. cbn [fold_left]. apply IHm.
        destruct (put_errs V w' f) as (z & -> & _). destruct (w_errs w'); [congruence|discriminate]. }
      split.
      * intros H. exfalso. apply (N l (put_event V w e)); auto. rewrite Ex. discriminate.
      * intros H. exfalso. assert (y :: ys = []) as [=]. apply Hx. intros v ->. apply (H [] v l eq_refl).
Qed.

Lemma closes_errs V n : forall w, w_errs (fold_left (put_event V) (repeat Closes n) w) = w_errs w.
Proof.
  induction n as [|n IH]; intros w; cbn [repeat fold_left]; auto. rewrite IH.
  destruct w as [[|[c m] [|[c' m'] o]] nm top es]; reflexivity.
Qed.

Lemma value_err v e : value_means v (TokErr e) -> e <> [].
Proof.
  intros H. inversion H; subst; try discriminate. match goal with R : reads _ _ |- _ => inversion R; subst; try discriminate end.
  match goal with R : lexeme _ _ |- _ => inversion R; subst; try discriminate end. assumption.
Qed.

Lemma wrap_nil s : wrap_errs s = [] <-> exists t, s = c_lb :: t ++ [c_rb].
Proof.
  unfold wrap_errs. split.
  - intros H. destruct s as [|c s]; [discriminate|]. cbn [app] in H.
    destruct (has_prefix [c_lb] (c :: s)) eqn:P; [|discriminate]. destruct (has_suffix [c_rb] (c :: s)) eqn:Q; [|discriminate].
    rewrite has_prefix1 in P. apply Ascii.eqb_eq in P. subst c. apply has_suffix_iff in Q as (u & E).
    destruct u as [|c u]; [discriminate|]. inversion E; subst. now exists u.
  - intros (t & ->). cbn [app]. rewrite has_prefix1. change (c_lb :: t ++ [c_rb]) with ((c_lb :: t) ++ [c_rb]).
    rewrite has_suffix1_app. reflexivity.
Qed.

Lemma balance_nil s : balance_errs s = []
  <-> let (o, q) := outside None false s in
      occurrences c_lb o = occurrences c_rb o /\ occurrences c_ls o = occurrences c_rs o /\ q = false.
Proof.
  unfold balance_errs. destruct (outside None false s) as [o q].
  destruct (Nat.eqb_spec (occurrences c_lb o) (occurrences c_rb o)); [|split; [discriminate|tauto]].
  destruct (Nat.eqb_spec (occurrences c_ls o) (occurrences c_rs o)); [|split; [discriminate|tauto]].
  destruct q; split; auto; intuition discriminate.
Qed.

Theorem every_accepted X h s : reachable X h ->
  ((exists d, parses X h s (GVal d))
   <-> (exists t, s = c_lb :: t ++ [c_rb])
       /\ panics_on s = false
       /\ (let (o, q) := outside None false s in
           occurrences c_lb o = occurrences c_rb o /\ occurrences c_ls o = occurrences c_rs o /\ q = false)
       /\ forall a v b, events s = a ++ Holds v :: b -> 0 < depth a /\ forall e, ~ value_means v (TokErr e)).
Proof.
  intros R. rewrite <- balance_nil, <- wrap_nil.
  assert (Er : w_errs (put_events denote (events s)) = []
    <-> forall a v b, events s = a ++ Holds v :: b -> 0 < depth a /\ forall e, ~ value_means v (TokErr e)).
  { unfold put_events. cbv zeta. rewrite closes_errs, (puts_errs denote (events s) nothing eq_refl). split; intros H a v b E.
    - destruct (H a v b E) as [D N]. split; [exact D|]. intros e M. apply (value_err v e M), N.
      eapply value_fun; [apply denote_means|exact M].
    - destruct (H a v b E) as [D N]. split; [exact D|]. intros e M. exfalso. apply (N e). rewrite <- M. apply denote_means. }
  split.
  - intros (d & H). pose proof (parses_no_panic _ _ _ _ R H) as P.
    pose proof (verdict_parses X h s denote R P (fun v _ => denote_means v)) as H'.
    pose proof (parses_fun _ _ _ _ _ H H') as E. unfold verdict in E. destruct (wrap_errs s); [|discriminate].
    rewrite <- Er. cbv zeta in E. destruct (w_errs (put_events denote (events s))); [|discriminate].
    destruct (balance_errs s); [auto|discriminate].
  - intros (W & P & B & Hv). apply Er in Hv.
    pose proof (verdict_parses X h s denote R P (fun v _ => denote_means v)) as H'.
    unfold verdict in H'. rewrite W, B in H'. cbv zeta in H'. rewrite Hv in H'.
    destruct (w_top (put_events denote (events s))) as [d|]; [now exists d|]. cbn in H'. tauto.
Qed.

(** ** Examples *)

Definition odd_text : str := lit "{x ""a"" y : 1, ""a"" {} : [2,{]}}".

Lemma ex_odd :
  events odd_text
  = [Opens KObject; Named (lit "a"); Holds (lit "1"); Named (lit "a"); Opens KArray; Holds (lit "2");
     Opens KObject; Closes; Holds []; Closes]
  /\ forall X h, reachable X h ->
       parses X h odd_text (GVal (DMap [(lit "a", DArr [DScal (SInt KUInt8 2); DMap []])])).
Proof.
  split; [reflexivity|]. intros X h R. apply every_outcome; auto. split; [reflexivity|].
  exists denote. split; [intros; apply denote_means|]. vm_compute. reflexivity.
Qed.

Lemma ex_values :
  Forall (fun p => value_means (fst p) (snd p))
    [(lit " ""x y"" ", TokDoc (DScal (SStr (lit "x y")))); (lit "x""y", TokErr [EValQuote]); (lit """", TokErr [EValQuote]);
     (lit " t r u e ", TokDoc (DScal (SBool true))); (lit " ", TokNone); (lit "-200", TokDoc (DScal (SInt KInt16 (-200))))].
Proof.
  repeat (apply Forall_cons; [cbn [fst snd]; match goal with |- value_means ?v ?r => replace r with (denote v) by (vm_compute; reflexivity) end;
    apply denote_means|]). apply Forall_nil.
Qed.
