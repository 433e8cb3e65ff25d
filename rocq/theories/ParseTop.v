(** * Parse returns the document the tree parser computes *)
From Coq Require Import Ascii String List NArith ZArith Bool Lia.
From Verif Require Import GoStr StrLemmas GoNum GoFloat Heap Common ValueModel ArrayModel MapModel
  SpecDict DictLemmas SpecWorld Inv World Reach ObjFacts SpecDoc RepFacts ParserModel TreeParser ParseWorld ParseRefine.
Import ListNotations.

Lemma close_all_up up g b t r : close_all up ((g, b) :: t) r = collapse ((up g, b) :: t) r.
Proof. unfold collapse. destruct t; reflexivity. Qed.

Lemma pop_collapse stk r q : t_pop stk r = Ok q -> collapse stk r = collapse (fst q) (snd q).
Proof.
  destruct stk as [|[f a] [|[g b] t]]; cbn; try discriminate; intros E; inversion E; subst; reflexivity.
Qed.

Lemma sinv_collapse X tn own w0 h ls : forall pr stk r,
  sinv X tn own w0 h ls pr stk r -> sinv X tn own w0 h [] pr [] (collapse stk r).
Proof.
  induction ls as [|v ls IH]; intros pr stk r S.
  - pose proof (sinv_nil _ _ _ _ _ _ _ _ S) as ->. exact S.
  - destruct (pop_refine _ _ _ _ _ _ _ _ _ _ S) as (q & E & S').
    rewrite (pop_collapse _ _ _ E). auto.
Qed.

(** The root is never forgotten. *)
Definition rooted (ts : tst) : Prop := t_root ts <> RNone.
Lemma pop_rooted stk r q : t_pop stk r = Ok q -> r <> RNone -> snd q <> RNone.
Proof.
  destruct stk as [|[f a] [|[g b] t]]; cbn; try discriminate; intros E; inversion E; subst; cbn; auto;
  destruct r; cbn; congruence.
Qed.
Lemma t_end_rooted pop ts ts' : t_end pop ts = Ok ts' -> rooted ts -> rooted ts'.
Proof.
  unfold t_end, rooted. destruct (t_value _ _ _) as [q| | |]; cbn; try discriminate.
  destruct pop.
  - destruct (t_pop _ _) as [l| | |] eqn:E; cbn; try discriminate. intros H; inversion H; subst; cbn.
    eapply pop_rooted; eauto.
  - cbn. intros H; inversion H; subst; auto.
Qed.
Lemma t_step_mode_rooted q b ts ts' : t_step_mode q b ts = Ok ts' -> rooted ts -> rooted ts'.
Proof.
  unfold t_step_mode, rooted.
  assert (V : (let st := t_set_mode MValue ts in
        if negb (t_ps st) then
          if Ascii.eqb b c_lb then t_open_map st
          else if Ascii.eqb b c_rb then t_end true st
          else if Ascii.eqb b c_ls then t_open_array st
          else if Ascii.eqb b c_rs then t_end true st
          else if Ascii.eqb b c_com then t_end false st
          else Ok (t_add_val (utf8_of_byte b) st)
        else Ok (t_add_val (utf8_of_byte b) st)) = Ok ts' -> t_root ts <> RNone -> t_root ts' <> RNone).
  { cbn zeta. destruct (negb _); [|intros H; inversion H; auto].
    destruct (Ascii.eqb b c_lb).
    { unfold t_open_map. destruct (t_attach _ _); cbn; try discriminate. intros H; inversion H; cbn.
      destruct (t_root ts); congruence. }
    destruct (Ascii.eqb b c_rb); [apply t_end_rooted|].
    destruct (Ascii.eqb b c_ls).
    { unfold t_open_array. destruct (t_stk _); [discriminate|]. destruct (t_attach _ _); cbn; try discriminate.
      intros H; inversion H; cbn; auto. }
    destruct (Ascii.eqb b c_rs); [apply t_end_rooted|].
    destruct (Ascii.eqb b c_com); [apply t_end_rooted|].
    intros H; inversion H; auto. }
  destruct (t_mode ts); cbn [andb].
  - destruct (Ascii.eqb b c_rb).
    + unfold t_close_keys. destruct (t_pop _ _) as [l| | |] eqn:E; cbn; try discriminate.
      intros H; inversion H; subst; cbn. eapply pop_rooted; eauto.
    + destruct q; intros H; inversion H; auto.
  - destruct q; intros H; inversion H; auto.
  - destruct (Ascii.eqb b c_col); intros H; inversion H; subst; auto.
  - exact V.
  - destruct (_ || _); [intros H; inversion H; subst; auto|exact V].
Qed.
Lemma t_step_rooted prev b ts ts' : t_step prev b ts = Ok ts' -> rooted ts -> rooted ts'.
Proof.
  unfold t_step. cbn zeta. intros H R.
  destruct (negb _).
  - destruct (_ && _); eapply t_step_mode_rooted in H; eauto.
  - destruct (_ && _).
    + destruct (t_mode _); first [eapply t_step_mode_rooted in H; eauto; fail | eapply t_end_rooted in H; eauto].
    + eapply t_step_mode_rooted in H; eauto.
Qed.
Lemma t_loop_rooted s : forall prev ts ts', t_loop prev s ts = Ok ts' -> rooted ts -> rooted ts'.
Proof.
  induction s as [|b s IH]; cbn; intros prev ts ts' H R.
  - inversion H; subst; auto.
  - destruct (t_step prev b ts) as [t1| | |] eqn:E; cbn in H; try discriminate.
    eapply IH; eauto. eapply t_step_rooted; eauto.
Qed.

Lemma t_loop_root s ts : has_prefix [c_lb] s = true -> t_loop None s tst0 = Ok ts -> rooted ts.
Proof.
  destruct s as [|b s]; cbn [has_prefix]; [discriminate|].
  intros H. apply andb_true_iff in H as [H _]. apply Ascii.eqb_eq in H. subst b.
  cbn [t_loop]. change (t_step None c_lb tst0) with
    (Ok (TSt MKeys false [] [] [(FMap [], ANone)] ROpen (count_bracket c_lb counts0) [])).
  cbn [rbind]. intros H. eapply t_loop_rooted; eauto. discriminate.
Qed.

Lemma same_below_impl base w0 w h : impl h w -> impl h (view h) -> same_below base w0 w -> same_below base w0 (view h).
Proof.
  intros P Q [A B C D]. destruct (impl_eq _ _ _ P Q) as (_ & Em & Ea & Ev & Er).
  split; intros; rewrite <- ?Em, <- ?Ea, <- ?Ev, <- ?Er; auto.
Qed.
Lemma keeps_impl F w h : impl h w -> impl h (view h) -> keeps_on w (view h) F F.
Proof.
  intros P Q. destruct (impl_eq _ _ _ P Q) as (_ & Em & Ea & Ev & Er).
  split; [auto|]. repeat split; intros; rewrite <- ?Em, <- ?Ea, <- ?Ev, <- ?Er; auto.
Qed.

Lemma slot_impl w w' h c p v : impl h w -> impl h w' -> slot w c p v -> slot w' c p v.
Proof.
  intros P Q. destruct (impl_eq _ _ _ P Q) as (_ & Em & Ea & _). unfold slot. destruct p; now rewrite ?Em, ?Ea.
Qed.
Lemma no_sharing_impl w w' h m : impl h w -> impl h w' -> no_sharing w m -> no_sharing w' m.
Proof.
  intros P Q. destruct (impl_eq _ _ _ P Q) as (_ & _ & _ & Ev & _).
  assert (A : (forall p l, object_at w' m p l -> object_at w m p l) /\ (forall p l, value_at w' m p l -> value_at w m p l)).
  { apply at_combined.
    - constructor.
    - intros. econstructor; eauto. now rewrite Ev.
    - intros. econstructor; eauto. eapply slot_impl; [exact Q|exact P|auto]. }
  destruct A as [A B]. intros [N1 N2]. split; intros; eauto.
Qed.
Lemma tree0 X h : reachable X h -> tree_inv (from (length h)) (view h) None.
Proof.
  intros R. assert (N : forall c p v, (length h <= c)%nat -> ~ slot (view h) c p v).
  { intros c p v Hc H. pose proof (live_view _ _ R) as L.
    assert (Q : (w_next (view h) <= c)%nat) by (rewrite (im_next _ _ (proj2 L)); auto).
    destruct (bounded_fresh (view h) c (live_bounded _ _ _ L) Q) as (Em & Ea & _).
    destruct p; unfold slot in H; destruct H as (d & E & _); congruence. }
  split; try discriminate; intros; exfalso; eapply N; eauto.
Qed.

(** Identities that did not exist in [h]. *)
Definition fresh_in (h : heap) : nat -> Prop := fun l => (length h <= l)%nat.

Lemma sinv0 X h : reachable X h -> sinv X NoNils (from (length h)) (view h) h [] None [] RNone.
Proof.
  intros R. exists (view h), []. split; auto.
  - now apply live_view.
  - apply off_refl.
  - constructor.
  - constructor.
  - cbn; auto.
  - now apply tree0 with (X := X).
Qed.

Definition parse_result (X : ext) (h : heap) (r : res (gres (option doc))) (p : res (gres (option nat) * heap)) : Prop :=
  match r with
  | Ok (GVal (Some d)) => exists h' m, p = Ok (GVal (Some m), h') /\ reachable X h'
      /\ same_below (length h) (view h) (view h')
      /\ rep_obj NoNils (view h') (fresh_in h) (IMap m) d
      /\ no_sharing (view h') m
  | Ok (GVal None) => False
  | Ok (GErr e) => e <> [] /\ exists h', p = Ok (GErr e, h') /\ reachable X h' /\ same_below (length h) (view h) (view h')
  | Panic => p = Panic
  | _ => False
  end.

Theorem parse_refines X h s : reachable X h -> parse_result X h (tparse s) (Parse X s h).
Proof.
  intros R. unfold Parse, tparse. fold (pre_errs s).
  destruct (pre_errs s) as [|e0 es] eqn:Epre.
  2: { cbn [parse_result]. split; [discriminate|]. exists h. repeat split; auto. }
  assert (Hp : has_prefix [c_lb] s = true).
  { unfold pre_errs in Epre. destruct s; [discriminate|]. destruct (has_prefix [c_lb] (a :: s)); auto. discriminate. }
  pose proof (sinv0 X h R) as S0.
  destruct (str_eqb s (lit "{}")).
  { unfold bind. destruct (run_new_map X h (view h)) as (h' & -> & L'); [now apply live_view|].
    cbn [parse_result]. exists h', (S (length h)). split; [reflexivity|]. destruct L' as [R' P'].
    pose proof (view_impl _ (reachable_Inv _ _ R')) as Q'.
    split; auto. split; [|split].
    - apply (same_below_impl _ _ (w_newmap (view h))); auto.
      apply off_below. exact (proj2 (evo_newmap (from (length h)) (view h) (live_bounded _ _ _ (live_view _ _ R)) (fun l H => H) (fun _ => False))).
    - apply rep_obj_frame with (w := w_newmap (view h)) (F := fresh_in h); [apply keeps_impl; auto|].
      eapply rep_map with (d := []); [left; reflexivity| | |constructor].
      + unfold fresh_in. lia.
      + cbn. apply put_same.
    - apply no_sharing_impl with (w := w_newmap (view h)) (h := h'); auto.
      apply tree_no_sharing with (own := from (length h)).
      pose proof (live_view _ _ R) as Lv. pose proof (im_next _ _ (proj2 Lv)) as Nx.
      apply tree_same with (w := view h) (pr := None); [now apply tree0 with (X := X)|unfold from; intros; lia| |].
      + apply (evo_newmap (from (length h)) (view h)); [now apply (live_bounded X h)|unfold from; intros; lia].
      + right. eexists. split; [reflexivity|]. cbn [w_newmap w_next]. lia. }
  assert (P0 : pinv X NoNils (from (length h)) (view h) tst0 pst0 h).
  { exists [], None. split; auto. }
  pose proof (loop_refine X NoNils (from (length h)) (view h) s None tst0 pst0 h P0) as A.
  unfold bind.
  destruct (t_loop None s tst0) as [ts| | |] eqn:El; destruct (parse_loop X None s pst0 h) as [[st h1]| | |];
    cbn in A; try contradiction; cbn [rbind parse_result]; auto.
  destruct A as (ls & pr & -> & S1). cbn [p_errs p_cnt p_root].
  assert (RS : reachable X h1 /\ same_below (length h) (view h) (view h1)).
  { destruct S1 as (w & zs & S1). pose proof (si_live _ _ _ _ _ _ _ _ _ _ _ S1) as [R1 P1].
    split; auto. apply (same_below_impl _ _ w); auto. apply view_impl, (reachable_Inv _ _ R1). apply off_below, S1. }
  destruct (t_errs ts) as [|e es].
  2: { cbn [parse_result]. split; [discriminate|]. exists h1. split; [reflexivity|]. tauto. }
  fold (post_errs (t_cnt ts)).
  destruct (post_errs (t_cnt ts)) as [|e es].
  2: { cbn [parse_result]. split; [discriminate|]. exists h1. split; [reflexivity|]. tauto. }
  pose proof (sinv_collapse _ _ _ _ _ _ _ _ _ S1) as S2.
  pose proof (t_loop_root _ _ Hp El) as Rt.
  destruct S2 as (w & zs & S2). pose proof (si_root _ _ _ _ _ _ _ _ _ _ _ S2) as Rr.
  pose proof (si_stk _ _ _ _ _ _ _ _ _ _ _ S2) as Sk. inversion Sk; subst.
  destruct (collapse (t_stk ts) (t_root ts)) as [| |d] eqn:Ec; cbn [rootrep] in Rr.
  - exfalso. assert (forall stk up r, r <> RNone -> close_all up stk r <> RNone) as N.
    { induction stk as [|[f a] stk IH]; intros up r H; cbn; auto. destruct stk; [destruct r; cbn; congruence|].
      apply IH; auto. }
    now apply (N (t_stk ts) (fun f => f) (t_root ts) Rt).
  - destruct Rr as (m & _ & []).
  - destruct Rr as (m & -> & Rr). cbn [root_doc parse_result]. exists h1, m. split; [reflexivity|].
    split; [tauto|]. split; [tauto|].
    pose proof (si_live _ _ _ _ _ _ _ _ _ _ _ S2) as [R1 P1].
    split; [|eapply no_sharing_impl; [exact P1|apply view_impl, (reachable_Inv _ _ R1)|];
             apply tree_no_sharing with (own := from (length h)); apply S2].
    eapply rep_obj_frame; [eapply keeps_impl; [exact P1|]|].
    + apply view_impl, (reachable_Inv _ _ R1).
    + eapply rep_obj_frame; [|exact Rr]. apply keeps_on_mono. intros l [Hl _]. exact Hl.
Qed.
