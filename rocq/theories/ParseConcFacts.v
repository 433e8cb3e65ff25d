(** * Parse calls that run at the same time do not disturb each other (proofs for C69) *)
From Coq Require Import Ascii String List NArith ZArith Bool Lia.
From Verif Require Import GoStr StrLemmas GoNum GoFloat Heap Common ValueModel ArrayModel MapModel
  JsonModel ParserModel ParseConcModel SpecDict DictLemmas SpecWorld Inv World Reach
  ObjFacts SpecDoc RepFacts TreeParser ParseWorld ParseRefine ParseTop ParseFacts SpecParse SpecParseConc PanicFacts ParseMore.
Import ListNotations.
Local Open Scope nat_scope.

(** ** What others do leaves the containers under construction alone *)
Definition same_at (w w' : world) (l : nat) : Prop :=
  w_map w' l = w_map w l /\ w_arr w' l = w_arr w l /\ w_val w' l = w_val w l /\ w_var w' l = w_var w l.

Section Keep.
  Context (X : ext) (tn : nils) (own own' : nat -> Prop) (w w' : world).
  Context (B : bounded w) (B' : bounded w') (N : w_next w <= w_next w').
  Context (S : forall l, own l -> l < w_next w -> same_at w w' l).
  Context (O1 : forall l, l < w_next w -> own l -> own' l).
  Context (O2 : forall l, l < w_next w' -> own' l -> own l /\ l < w_next w).
  Context (O3 : forall l, w_next w' <= l -> own' l).

  Lemma keep_map l d : own l -> w_map w l = Some d -> w_map w' l = Some d.
  Proof. intros H E. destruct B as (_ & _ & Bm & _). destruct (S l H (Bm _ _ E)) as (-> & _). exact E. Qed.
  Lemma keep_arr l d : own l -> w_arr w l = Some d -> w_arr w' l = Some d.
  Proof. intros H E. destruct B as (_ & _ & _ & Ba). destruct (S l H (Ba _ _ E)) as (_ & -> & _). exact E. Qed.
  Lemma keep_val l d : own l -> w_val w l = Some d -> w_val w' l = Some d.
  Proof. intros H E. destruct B as (Bv & _). destruct (S l H (Bv _ _ E)) as (_ & _ & -> & _). exact E. Qed.
  Lemma keep_var l d : own l -> w_var w l = Some d -> w_var w' l = Some d.
  Proof. intros H E. destruct B as (_ & Br & _). destruct (S l H (Br _ _ E)) as (_ & _ & _ & ->). exact E. Qed.

  Lemma keep_keeps zs : keeps_on w w' (Fr own zs) (Fr own' zs).
  Proof.
    split; [|repeat split; intros l d [H _]; [apply keep_map|apply keep_arr|apply keep_val|apply keep_var]; auto].
    intros l [H Nz]. destruct (Nat.lt_ge_cases l (w_next w)) as [L|L].
    - left. split; auto.
    - right. now apply bounded_fresh.
  Qed.

  Lemma keep_slot c p v : own' c -> slot w' c p v -> own c /\ slot w c p v.
  Proof.
    intros H Sl. assert (L : c < w_next w').
    { destruct B' as (_ & _ & Bm & Ba). destruct p; destruct Sl as (d & E & _); [apply Bm in E|apply Ba in E]; exact E. }
    destruct (O2 c L H) as [Oc Lc]. split; auto. destruct (S c Oc Lc) as (Em & Ea & _).
    destruct p; cbn in *; [now rewrite Em in Sl|now rewrite Ea in Sl].
  Qed.

  Lemma content_keep zs c z f : own z -> content tn w (Fr own zs) c z f -> content tn w' (Fr own' zs) c z f.
  Proof.
    intros Hz. pose proof (keep_keeps zs) as K. unfold content.
    assert (P : forall f, match f with
          | FMap es => exists d, rep_members tn w (Fr own zs) d es /\ w_map w z = Some d
          | FArr ds => exists l, rep_elems tn w (Fr own zs) l ds /\ w_arr w z = Some l
          end -> match f with
          | FMap es => exists d, rep_members tn w' (Fr own' zs) d es /\ w_map w' z = Some d
          | FArr ds => exists l, rep_elems tn w' (Fr own' zs) l ds /\ w_arr w' z = Some l
          end).
    { intros [es|ds] (d & R & E); exists d; split.
      - eapply rep_members_frame; eauto.
      - now apply keep_map.
      - eapply rep_elems_frame; eauto.
      - now apply keep_arr. }
    destruct c as [[[a g] z']|]; [|exact (P f)]. destruct (attached a); [|exact (P f)].
    intros (u & i & Fu & Eu & Hh & R). exists u, i. split.
    { destruct K as (KF & _). destruct (KF _ Fu) as [|(_ & _ & V & _)]; auto. congruence. }
    split; [apply keep_val; auto; apply Fu|]. split; auto.
    destruct f as [es|ds]; destruct R as (d & R & E); exists d; split.
    - eapply rep_members_frame; eauto.
    - now apply keep_map.
    - eapply rep_elems_frame; eauto.
    - now apply keep_arr.
  Qed.

  Lemma srep_keep zs0 c vs zs stk : Forall own vs -> (forall z, In z zs -> own z) ->
    srep tn w (Fr own zs0) c vs zs stk -> srep tn w' (Fr own' zs0) c vs zs stk.
  Proof.
    intros Hv Hz Sr. induction Sr as [|c v vs z zs f a stk Ev Hc Sr IH]; constructor.
    - inversion Hv; subst. now apply keep_val.
    - apply content_keep; auto. apply Hz. now left.
    - inversion Hv; subst. apply IH; auto. intros y Hy. apply Hz. now right.
  Qed.

  Lemma tree_keep pr : tree_inv own w pr -> tree_inv own' w' pr.
  Proof.
    intros [A Bq C D].
    assert (V : forall c p v i, own c -> slot w c p v -> w_val w' v = Some i ->
      w_val w v = Some i /\ forall l, refers i = Some l -> own l /\ l < w_next w).
    { intros c p v i Hc H E. destruct (A c p v Hc H) as ((Ov & Lv) & j & Ej & R).
      rewrite (keep_val _ _ Ov Ej) in E. inversion E; subst. auto. }
    split.
    - intros c p v Hc H. apply keep_slot in H as [Oc H]; auto. destruct (A c p v Oc H) as ((Ov & Lv) & j & Ej & R).
      split; [split; auto; lia|]. exists j. split; [now apply keep_val|]. intros l Hl. destruct (R l Hl). split; auto. lia.
    - intros c p v c' p' Hc Hc' H H'. apply keep_slot in H as [Oc H]; auto. apply keep_slot in H' as [Oc' H']; auto. eauto.
    - intros c p v i c' p' v' i' l Hc Hc' H H' E E' R R'.
      apply keep_slot in H as [Oc H]; auto. apply keep_slot in H' as [Oc' H']; auto.
      destruct (V _ _ _ _ Oc H E) as [E1 _]. destruct (V _ _ _ _ Oc' H' E') as [E2 _].
      exact (C c p v i c' p' v' i' l Oc Oc' H H' E1 E2 R R').
    - intros m Em. destruct (D m Em) as [[Om Lm] Rm]. split; [split; auto; lia|].
      intros c p v i Hc H E. apply keep_slot in H as [Oc H]; auto. destruct (V _ _ _ _ Oc H E) as [E1 _]. eauto.
  Qed.

  Lemma sinv_keep w0 h h' ls pr stk r zs :
    sinv_at X tn own w0 h ls pr stk r w zs -> live X h' w' -> sinv_at X tn own' w' h' ls pr stk r w' zs.
  Proof.
    intros [L Bs Sm Nx Nd Zs Ls Sk Rt Tr] L'.
    assert (Oz : forall z, In z zs -> own z /\ z < w_next w) by now apply Forall_forall.
    split; auto.
    - apply off_refl.
    - rewrite Forall_forall. intros z Hz. destruct (Oz z Hz). split; auto. lia.
    - apply Forall_forall. intros v Hv. apply O1; [|now apply (proj1 (Forall_forall _ _) Ls)].
      clear - Sk Hv B. induction Sk; [destruct Hv|]. destruct Hv as [->|Hv]; auto. destruct B as (Bv & _). eauto.
    - apply srep_keep; auto. intros z Hz. now apply Oz.
    - destruct r; cbn in *; auto. destruct Rt as (m & E & R). exists m. split; auto.
      eapply rep_obj_frame; [apply keep_keeps|exact R].
    - now apply tree_keep.
  Qed.
End Keep.

(** ** Goroutines *)
Definition mine (by_ : nat -> option nat) (h : heap) (i : nat) : nat -> Prop :=
  fun l => by_ l = Some i \/ length h <= l.

Definition tinv (X : ext) (h : heap) (by_ : nat -> option nat) (i : nat) (t : pth) : Prop :=
  match t with
  | PStart _ => forall l, by_ l <> Some i
  | PLoop s prev rest st =>
      pre_errs s = [] /\ str_eqb s (lit "{}") = false
      /\ exists ts ls pr zs, t_loop None s tst0 = t_loop prev rest ts
         /\ st = PSt (t_mode ts) (t_ps ts) (t_tk ts) (t_tv ts) ls pr (t_cnt ts) (t_errs ts)
         /\ sinv_at X NoNils (mine by_ h i) (view h) h ls pr (t_stk ts) (t_root ts) (view h) zs
  | PDone _ _ => True
  end.

Record cinv (X : ext) (C : conf) : Prop := {
  ci_reach : reachable X (c_heap C);
  ci_by : forall l i, c_by C l = Some i -> l < length (c_heap C) /\ i < length (c_ths C);
  ci_ths : forall i t, nth_error (c_ths C) i = Some t -> tinv X (c_heap C) (c_by C) i t }.

Lemma view_bounded X h : reachable X h -> bounded (view h).
Proof. intros R. exact (live_bounded _ _ _ (live_view _ _ R)). Qed.

Lemma tinv_keep X h by_ h' by_' j t :
  reachable X h -> reachable X h' -> length h <= length h' ->
  (forall l, by_ l = Some j -> done t = false -> same_object h h' l) ->
  (forall l, by_' l = Some j <-> by_ l = Some j) -> (forall l, by_ l = Some j -> l < length h) ->
  tinv X h by_ j t -> tinv X h' by_' j t.
Proof.
  intros R R' N S E Bd. destruct t as [s|s prev rest st|s r]; cbn [tinv]; auto.
  - intros H l Hl. apply E in Hl. now apply (H l).
  - intros (Hp & Hs & ts & ls & pr & zs & El & Es & Si). split; auto. split; auto. exists ts, ls, pr, zs. split; auto. split; auto.
    eapply (sinv_keep X NoNils (mine by_ h j) (mine by_' h' j) (view h) (view h')); eauto using view_bounded, live_view; cbn [w_next view].
    + intros l [Hl|Hl] Hn; [|exfalso; lia]. exact (S l Hl eq_refl).
    + intros l Hl [Hb|Hb]; [|exfalso; lia]. left. now apply E.
    + intros l Hl [Hb|Hb]; [|exfalso; lia]. apply E in Hb. split; [left; auto|auto].
    + intros l Hl. right. exact Hl.
Qed.

(** A step of the loop, for the goroutine that takes it. *)
Lemma own_step X h by_ i s prev b rest st :
  reachable X h -> (forall l j, by_ l = Some j -> l < length h) ->
  tinv X h by_ i (PLoop s prev (b :: rest) st) ->
  match step X prev b st h with
  | Ok (st', h') => reachable X h' /\ length h <= length h'
      /\ (forall l, l < length h -> by_ l <> Some i -> same_object h h' l)
      /\ tinv X h' (mark by_ i h h') i (PLoop s (Some b) rest st')
  | Panic => tparse s = Panic
  | _ => False
  end.
Proof.
  intros R Bd (Hp & Hs & ts & ls & pr & zs & El & Es & Si).
  assert (P : pinv X NoNils (mine by_ h i) (view h) ts st h).
  { exists ls, pr. split; auto. exists (view h), zs. exact Si. }
  pose proof (step_refine X NoNils _ _ prev b ts st h P) as A. cbn [t_loop] in El.
  destruct (t_step prev b ts) as [ts'| | |]; destruct (step X prev b st h) as [[st' h']| | |]; cbn in A; try contradiction.
  2: { unfold tparse. rewrite Hp, Hs, El. reflexivity. }
  cbn [rbind] in El. destruct A as (ls' & pr' & -> & w & zs' & S'). pose proof (si_live _ _ _ _ _ _ _ _ _ _ _ S') as [R' P'].
  pose proof (view_impl _ (reachable_Inv _ _ R')) as Q'. destruct (impl_eq _ _ _ P' Q') as (En & Em & Ea & Ev & Er).
  pose proof (si_next _ _ _ _ _ _ _ _ _ _ _ S') as N. cbn [w_next view] in N. rewrite En in N. cbn [w_next view] in N.
  split; auto. split; auto. split.
  - intros l Hl Hb. assert (NM : ~ mine by_ h i l) by (intros [H|H]; [auto|lia]).
    destruct (si_same _ _ _ _ _ _ _ _ _ _ _ S' l NM) as (H1 & H2 & H3 & H4).
    unfold same_object. now rewrite <- Em, <- Ea, <- Ev, <- Er.
  - split; auto. split; auto. exists ts', ls', pr', zs'. split; auto. split; auto.
    eapply (sinv_keep X NoNils (mine by_ h i) (mine (mark by_ i h h') h' i) w (view h')); eauto using view_bounded, live_view.
    + apply (live_bounded X h'). split; auto.
    + rewrite En. auto.
    + intros l _ _. unfold same_at. auto.
    + intros l Hl H. rewrite En in Hl. cbn [w_next view] in Hl. left. unfold mark.
      destruct (Nat.leb_spec (length h) l); cbn [andb].
      * now rewrite (proj2 (Nat.ltb_lt _ _) Hl).
      * destruct H; auto. lia.
    + rewrite En. intros l Hl [H|H]; [|cbn [w_next view] in Hl; lia]. split; auto. unfold mark in H.
      destruct (Nat.leb_spec (length h) l); cbn [andb] in H; [right; auto|left; auto].
    + intros l Hl. right. exact Hl.
Qed.

(** Steps a call of Parse still has to take. *)
Definition left (t : pth) : nat :=
  match t with PStart s => S (S (length s)) | PLoop _ _ rest _ => S (length rest) | PDone _ _ => 0 end.

(** [as_alone], with a tree of objects in place of the absence of sharing. *)
Definition result_ok (X : ext) (s : str) (r : gres (option loc)) (h : heap) (by_ : nat -> option nat) (i : nat) : Prop :=
  match r with
  | GErr e => forall g, reachable X g -> parses X g s (GErr e)
  | GVal None => False
  | GVal (Some m) => exists d,
      rep_obj NoNils (view h) (fun l => by_ l = Some i) (IMap m) d /\ tree_inv (mine by_ h i) (view h) (Some m)
      /\ forall g, reachable X g -> parses X g s (GVal d)
  end.
Lemma result_alone X s r h by_ i : result_ok X s r h by_ i -> as_alone X s r h (fun l => by_ l = Some i).
Proof.
  destruct r as [[m|]|e]; cbn; auto. intros (d & A & B & C). exists d. split; auto. split; auto. eapply tree_no_sharing; eauto.
Qed.

Definition step_ok (X : ext) (h : heap) (by_ : nat -> option nat) (i : nat) (t t' : pth) (h' : heap) : Prop :=
  reachable X h' /\ length h <= length h' /\ parsing t' = parsing t
  /\ (done t = false -> left t' < left t)
  /\ (forall l, l < length h -> by_ l <> Some i -> same_object h h' l)
  /\ tinv X h' (mark by_ i h h') i t'
  /\ (done t = false -> forall r, t' = PDone (parsing t) r ->
        result_ok X (parsing t) r h' (mark by_ i h h') i).

Lemma same_object_refl h l : same_object h h l.
Proof. repeat split. Qed.

Lemma start_ok X h by_ i s :
  reachable X h -> (forall l j, by_ l = Some j -> l < length h) -> (forall l, by_ l <> Some i) ->
  exists t' h', pstep X (PStart s) h = Ok (t', h') /\ step_ok X h by_ i (PStart s) t' h'.
Proof.
  intros R Bd Nb. cbn [pstep]. change (before_loop s) with (pre_errs s).
  destruct (pre_errs s) as [|e es] eqn:Ep.
  2: { exists (PDone s (GErr (e :: es))), h. split; [reflexivity|]. repeat split; auto; cbn [left length]; try lia.
    intros _ r [= <-]. cbn [result_ok parsing]. intros g Rg. apply parses_tree; auto. unfold tparse. now rewrite Ep. }
  destruct (str_eqb s (lit "{}")) eqn:Es.
  - unfold bind. destruct (run_new_map X h (view h)) as (h' & -> & L'); [now apply live_view|].
    destruct L' as [R' P']. pose proof (view_impl _ (reachable_Inv _ _ R')) as Q'.
    destruct (impl_eq _ _ _ P' Q') as (En & Em & Ea & Ev & Er). cbn [w_next view w_newmap] in En.
    pose proof (evo_newmap (from (length h)) (view h) (view_bounded _ _ R) (fun l H => H) (fun _ => False)) as [Ov Of].
    exists (PDone s (GVal (Some (S (length h))))), h'. split; [reflexivity|].
    split; [auto|]. split; [lia|]. split; [auto|]. split; [cbn; lia|]. split; [|split; [exact Logic.I|]].
    + intros l Hl _. destruct (Of l) as (H1 & H2 & H3 & H4); [unfold from; lia|]. unfold same_object. now rewrite <- Em, <- Ea, <- Ev, <- Er.
    + intros _ r [= <-]. cbn [result_ok parsing]. exists (DMap []). split; [|split].
      * eapply rep_map with (d := []); [left; reflexivity| | |constructor].
        -- unfold mark. rewrite <- En. rewrite (proj2 (Nat.leb_le _ _)), (proj2 (Nat.ltb_lt _ _)) by lia. reflexivity.
        -- rewrite <- Em. cbn. apply put_same.
      * assert (Lh : length h' = S (S (length h))) by lia.
        apply (tree_keep (from (length h)) _ (w_newmap (view h)) (view h')); auto.
        { apply (live_bounded X h'). split; auto. }
        { now apply (view_bounded X). }
        { cbn. lia. }
        { intros l _ _. unfold same_at. auto. }
        { cbn. unfold from. intros l L1 L2. left. unfold mark.
          rewrite (proj2 (Nat.leb_le _ _)), (proj2 (Nat.ltb_lt _ _)) by lia. reflexivity. }
        { cbn. intros l L1 [H|H]; [|lia]. split; [|lia]. unfold from. unfold mark in H.
          destruct (Nat.leb_spec (length h) l); auto. cbn [andb] in H. exfalso. now apply (Nb l). }
        apply tree_same with (w := view h) (pr := None); [now apply tree0 with (X := X)|unfold from; cbn; lia|exact Ov|].
        right. eexists. split; [reflexivity|]. cbn [w_newmap w_next view]. lia.
      * intros g Rg. apply parses_tree; auto. unfold tparse. now rewrite Ep, Es.
  - exists (PLoop s None s pst0), h. split; [reflexivity|]. repeat split; auto; cbn [left]; try lia.
    + exists tst0. destruct (sinv0 X h R) as (w & zs & S0). exists [], None, zs. split; auto. split; auto.
      pose proof (si_live _ _ _ _ _ _ _ _ _ _ _ S0) as [_ P0].
      pose proof (view_impl _ (reachable_Inv _ _ R)) as Q. destruct (impl_eq _ _ _ P0 Q) as (En & Em & Ea & Ev & Er).
      eapply (sinv_keep X NoNils (from (length h)) (mine (mark by_ i h h) h i) w (view h)); eauto using view_bounded, live_view.
      * apply (live_bounded X h). split; auto.
      * now rewrite En.
      * intros l _ _. unfold same_at. auto.
      * rewrite En. unfold from. cbn. intros. right. auto.
      * rewrite En. cbn. intros l Hl [H|H]; [|lia]. exfalso. unfold mark in H.
        destruct (Nat.leb_spec (length h) l); cbn [andb] in H; [lia|]. now apply (Nb l).
      * cbn. intros l Hl. now right.
    + discriminate.
Qed.

Lemma finish_ok X h by_ i s prev st :
  reachable X h -> (forall l j, by_ l = Some j -> l < length h) -> tinv X h by_ i (PLoop s prev [] st) ->
  step_ok X h by_ i (PLoop s prev [] st) (PDone s (after_loop st)) h.
Proof.
  intros R Bd (Hp & Hs & ts & ls & pr & zs & El & Es & Si). cbn [t_loop] in El.
  repeat split; auto; cbn [left length]; try lia.
  intros _ r [= <-]. cbn [parsing].
  assert (T : tparse s = match t_errs ts with
        | (_ :: _) as e => Ok (GErr e)
        | [] => match post_errs (t_cnt ts) with
                | (_ :: _) as e => Ok (GErr e)
                | [] => Ok (GVal (root_doc (collapse (t_stk ts) (t_root ts))))
                end end).
  { unfold tparse. rewrite Hp, Hs, El. reflexivity. }
  assert (Pf : has_prefix [c_lb] s = true).
  { unfold pre_errs in Hp. destruct s; [discriminate|]. destruct (has_prefix [c_lb] (a :: s)); auto. discriminate. }
  subst st. unfold after_loop. cbn [p_errs p_cnt p_root].
  destruct (t_errs ts) as [|e es] eqn:Ee.
  2: { cbn [result_ok]. intros g Rg. now apply parses_tree. }
  cbv zeta. fold (post_errs (t_cnt ts)). destruct (post_errs (t_cnt ts)) as [|e es].
  2: { cbn [result_ok]. intros g Rg. now apply parses_tree. }
  assert (S1 : sinv X NoNils (mine by_ h i) (view h) h ls pr (t_stk ts) (t_root ts)) by (exists (view h), zs; exact Si).
  pose proof (sinv_collapse _ _ _ _ _ _ _ _ _ S1) as (w & zs2 & S2).
  pose proof (t_loop_root _ _ Pf El) as Rt. pose proof (si_root _ _ _ _ _ _ _ _ _ _ _ S2) as Rr.
  pose proof (si_live _ _ _ _ _ _ _ _ _ _ _ S2) as [_ P2].
  pose proof (view_impl _ (reachable_Inv _ _ R)) as Q. destruct (impl_eq _ _ _ P2 Q) as (En & Em & Ea & Ev & Er).
  destruct (collapse (t_stk ts) (t_root ts)) as [| |d] eqn:Ec; cbn [rootrep] in Rr.
  - exfalso. assert (forall stk up r, r <> RNone -> close_all up stk r <> RNone) as N.
    { induction stk as [|[f a] stk IH]; intros up r H; cbn; auto. destruct stk; [destruct r; cbn; congruence|].
      apply IH; auto. }
    now apply (N (t_stk ts) (fun f => f) (t_root ts) Rt).
  - destruct Rr as (m & _ & Hb). exfalso. pose proof (si_stk _ _ _ _ _ _ _ _ _ _ _ S2) as Sk. inversion Sk; subst. destruct Hb.
  - destruct Rr as (m & -> & Rr). cbn [result_ok]. exists d. split; [|split].
    + eapply rep_obj_frame; [|exact Rr]. split.
      * intros l [[H|H] _]; [left|right; rewrite Em, Ea, Ev, Er; apply bounded_fresh; auto; now apply (view_bounded X)].
        unfold mark. pose proof (Bd _ _ H). rewrite (proj2 (Nat.leb_gt _ _)) by lia. exact H.
      * repeat split; intros l c _ H; rewrite <- ?Em, <- ?Ea, <- ?Ev, <- ?Er; exact H.
    + assert (Mk : forall l, mark by_ i h h l = by_ l).
      { intros l. unfold mark. destruct (Nat.leb_spec (length h) l); cbn [andb]; auto.
        now rewrite (proj2 (Nat.ltb_ge _ _)). }
      apply (tree_keep (mine by_ h i) _ w (view h)); [..|apply S2].
      * apply (live_bounded X h). split; auto.
      * now apply (view_bounded X).
      * now rewrite En.
      * intros l _ _. unfold same_at. auto.
      * intros l _ [H|H]; [left; now rewrite Mk|right; auto].
      * rewrite En. intros l L1 [H|H]; rewrite ?Mk in H; split; auto; [left|right]; auto.
    + intros g Rg. now apply parses_tree.
Qed.

Lemma pstep_ok X h by_ i t :
  reachable X h -> (forall l j, by_ l = Some j -> l < length h) -> tinv X h by_ i t ->
  match pstep X t h with
  | Ok (t', h') => step_ok X h by_ i t t' h'
  | Panic => tparse (parsing t) = Panic
  | _ => False
  end.
Proof.
  intros R Bd I. destruct t as [s|s prev [|b rest] st|s r].
  - destruct (start_ok X h by_ i s R Bd I) as (t' & h' & -> & H). exact H.
  - cbn [pstep ret]. now apply finish_ok.
  - cbn [pstep]. unfold bind. pose proof (own_step _ _ _ _ _ _ _ _ _ R Bd I) as A.
    destruct (step X prev b st h) as [[st' h']| | |]; auto. destruct A as (R' & N & Sm & I').
    cbn [ret]. split; [auto|]. split; [auto|]. split; [auto|]. split; [cbn; lia|]. split; [auto|]. split; [auto|]. discriminate.
  - cbn [pstep ret]. split; [auto|]. split; [auto|]. split; [auto|]. split; [discriminate|]. split; [auto using same_object_refl|].
    split; [exact Logic.I|discriminate].
Qed.

(** ** Calls change at most their target *)
Lemma call_frame c w l : bounded w -> ok_call w c -> l < w_next w -> target c <> Some l ->
  same_at w (snd (spec_call c w)) l.
Proof.
  intros B K L T. unfold same_at.
  destruct c; cbn in *; repeat (match goal with |- context [if ?b then _ else _] => destruct b end; cbn);
    repeat split; try reflexivity; try (apply put_other; first [lia|congruence]).
Qed.

Lemma nth_upd {A} (l : list A) i x j y : nth_error (upd l i x) j = Some y ->
  (j = i /\ y = x) \/ (j <> i /\ nth_error l j = Some y).
Proof.
  revert i j. induction l as [|a l IH]; intros [|i] [|j]; cbn; try discriminate; intros H; auto.
  - inversion H; auto.
  - destruct (IH _ _ H) as [[-> ->]|[N E]]; auto.
Qed.
Lemma upd_length {A} (l : list A) i x : length (upd l i x) = length l.
Proof. revert i. induction l as [|a l IH]; intros [|i]; cbn; auto. Qed.

Lemma mark_other by_ i h h' l j : j <> i -> (forall l j, by_ l = Some j -> l < length h) -> mark by_ i h h' l = Some j <-> by_ l = Some j.
Proof.
  intros N Bd. unfold mark. destruct (Nat.leb_spec (length h) l); cbn [andb]; [|tauto].
  destruct (Nat.ltb_spec l (length h')); [|tauto]. split; intros E; [congruence|]. apply Bd in E. lia.
Qed.

Lemma cstep_inv X C e C' : cinv X C -> cstep X C e C' -> cinv X C'.
Proof.
  intros [R Bd I] S. destruct S as [h ts by_ s|h ts by_ i t t' h' Ht Es|h ts by_ c o h' K Er Hd]; cbn [c_heap c_ths c_by] in *.
  - split; cbn [c_heap c_ths c_by]; auto.
    + intros l i H. rewrite app_length. destruct (Bd _ _ H). cbn. lia.
    + intros i t H. destruct (Nat.lt_ge_cases i (length ts)) as [L|L].
      * rewrite nth_error_app1 in H by auto. auto.
      * rewrite nth_error_app2 in H by auto. destruct (i - length ts) as [|[|q]] eqn:Q; cbn in H; try discriminate.
        inversion H; subst. cbn [tinv]. intros l E. destruct (Bd _ _ E). lia.
  - assert (Bl : forall l j, by_ l = Some j -> l < length h) by (intros; eapply Bd; eauto).
    pose proof (pstep_ok X h by_ i t R Bl (I _ _ Ht)) as A. rewrite Es in A. destruct A as (R' & N & _ & _ & Sm & It & _).
    split; cbn [c_heap c_ths c_by]; auto.
    + intros l j H. rewrite upd_length. unfold mark in H. destruct (Nat.leb_spec (length h) l); cbn [andb] in H.
      * destruct (Nat.ltb_spec l (length h')); [|apply Bd in H; lia]. inversion H; subst. split; auto. apply nth_error_Some. congruence.
      * destruct (Bd _ _ H). lia.
    + intros j u Hj. apply nth_upd in Hj as [[-> ->]|[Nj Hj]]; auto.
      apply (tinv_keep X h by_ h' _ j u); eauto.
      * intros l Hl _. apply Sm; [eauto|congruence].
      * intros l. now apply mark_other.
  - pose proof (live_view _ _ R) as L. destruct (run_one X h (view h) c L K) as (h1 & E1 & L1). rewrite Er in E1. inversion E1; subst h1.
    destruct L1 as [R' P']. pose proof (view_impl _ (reachable_Inv _ _ R')) as Q'. destruct (impl_eq _ _ _ P' Q') as (En & Em & Ea & Ev & Er2).
    assert (N : length h <= length h').
    { destruct (run_call_ok h (view h) c (reachable_Inv _ _ R) (proj2 L) K) as (h2 & E2 & _ & Hx & _). rewrite Er in E2. inversion E2; subst. now apply hext_len. }
    split; cbn [c_heap c_ths c_by]; auto.
    + intros l i H. destruct (Bd _ _ H). split; auto. lia.
    + intros i t Ht. apply (tinv_keep X h by_ h' by_ i t); auto.
      * intros l Hl Hdn. destruct (call_frame c (view h) l (live_bounded _ _ _ L) K) as (H1 & H2 & H3 & H4).
        { cbn. eapply Bd; eauto. }
        { intros T. rewrite (Hd l i t T Hl Ht) in Hdn. discriminate. }
        unfold same_object. now rewrite <- Em, <- Ea, <- Ev, <- Er2.
      * tauto.
      * intros l H. eapply Bd; eauto.
Qed.

Lemma conf0_inv X h : reachable X h -> cinv X (conf0 h).
Proof. intros R. split; cbn; auto; [discriminate|]. intros [|i] t H; discriminate. Qed.

Lemma runs_inv X h es C : reachable X h -> runs X (conf0 h) es C -> cinv X C.
Proof.
  intros R H. remember (conf0 h) as C0 eqn:E. induction H as [C|C es C1 e C2 H IH S]; subst.
  - now apply conf0_inv.
  - eapply cstep_inv; eauto.
Qed.

(** ** The claims *)
Lemma running X h0 es C i t : reachable X h0 -> runs X (conf0 h0) es C -> nth_error (c_ths C) i = Some t ->
  match pstep X t (c_heap C) with
  | Ok (t', h') => step_ok X (c_heap C) (c_by C) i t t' h'
  | Panic => tparse (parsing t) = Panic
  | _ => False
  end.
Proof.
  intros R H E. pose proof (runs_inv _ _ _ _ R H) as [R' Bd I]. apply pstep_ok; auto. intros l j Hl. eapply Bd; eauto.
Qed.

Lemma conc_result X h0 es C i t t' h' r : reachable X h0 -> runs X (conf0 h0) es C ->
  nth_error (c_ths C) i = Some t -> done t = false -> pstep X t (c_heap C) = Ok (t', h') -> t' = PDone (parsing t) r ->
  as_alone X (parsing t) r h' (fun l => mark (c_by C) i (c_heap C) h' l = Some i).
Proof.
  intros R H E D P Er. pose proof (running _ _ _ _ _ _ R H E) as A. rewrite P in A.
  apply result_alone. now apply A.
Qed.

Lemma conc_panic X h0 es C i t : reachable X h0 -> runs X (conf0 h0) es C -> nth_error (c_ths C) i = Some t ->
  (exists t' h', pstep X t (c_heap C) = Ok (t', h'))
  \/ pstep X t (c_heap C) = Panic /\ forall g, reachable X g -> Parse X (parsing t) g = Panic.
Proof.
  intros R H E. pose proof (running _ _ _ _ _ _ R H E) as A. destruct (pstep X t (c_heap C)) as [[t' h']| | |]; try contradiction; eauto.
  right. split; auto. intros g Rg. now apply parse_panic.
Qed.

Lemma conc_apart X h0 es C i t t' h' : reachable X h0 -> runs X (conf0 h0) es C ->
  nth_error (c_ths C) i = Some t -> pstep X t (c_heap C) = Ok (t', h') ->
  reachable X h' /\ parsing t' = parsing t
  /\ forall l, l < length (c_heap C) -> c_by C l <> Some i -> same_object (c_heap C) h' l.
Proof.
  intros R H E P. pose proof (running _ _ _ _ _ _ R H E) as A. rewrite P in A. destruct A as (A1 & A2 & A3 & A4 & A5 & _). auto.
Qed.

(** Steps taken by goroutine [i]. *)
Definition steps_of (i : nat) (es : list event) : nat :=
  length (filter (fun e => match e with EvStep j => Nat.eqb i j | _ => false end) es).

Lemma steps_app i es e : steps_of i (es ++ [e]) = steps_of i es + steps_of i [e].
Proof. unfold steps_of. now rewrite filter_app, app_length. Qed.

Lemma nth_upd_same {A} (l : list A) i x y : nth_error l i = Some y -> nth_error (upd l i x) i = Some x.
Proof. revert i. induction l as [|a l IH]; intros [|i] H; cbn in *; try discriminate; eauto. Qed.
Lemma nth_upd_other {A} (l : list A) i j x : i <> j -> nth_error (upd l i x) j = nth_error l j.
Proof. revert i j. induction l as [|a l IH]; intros [|i] [|j] H; cbn; auto; congruence. Qed.

(** A goroutine that took as many steps as its text has bytes, and two more, is done. *)
Lemma conc_progress X h0 es C i t : reachable X h0 -> runs X (conf0 h0) es C ->
  nth_error (c_ths C) i = Some t -> done t = true \/ steps_of i es + left t <= length (parsing t) + 2.
Proof.
  intros R H. remember (conf0 h0) as C0 eqn:E0. revert i t. induction H as [C|C es C1 e C2 H IH S]; intros i t Ht; subst.
  - destruct i; discriminate.
  - pose proof (runs_inv _ _ _ _ R H) as Inv1. specialize (IH eq_refl). rewrite steps_app.
    destruct S as [h ts by_ s|h ts by_ j u u' h' Hu Es|h ts by_ c o h' K Er Hd]; cbn [c_heap c_ths c_by] in *.
    + destruct (Nat.lt_ge_cases i (length ts)) as [L|L].
      * rewrite nth_error_app1 in Ht by auto. destruct (IH _ _ Ht); auto. right. cbn. lia.
      * rewrite nth_error_app2 in Ht by auto. destruct (i - length ts) as [|[|q]] eqn:Q; cbn in Ht; try discriminate.
        inversion Ht; subst. right. cbn [left parsing].
        assert (Z : steps_of i es = 0).
        { clear - H L R. assert (G : forall C, runs X (conf0 h0) es C -> length (c_ths C) <= i -> steps_of i es = 0).
          { clear. intros C H. remember (conf0 h0) as C0 eqn:E0. induction H as [C|C es C1 e C2 H IH S]; intros L; auto.
            rewrite steps_app. destruct S as [h ts by_ s|h ts by_ j u u' h' Hu Es|h ts by_ c o h' K Er Hd]; cbn [c_ths] in *.
            - rewrite app_length in L. rewrite IH by (auto; lia). reflexivity.
            - rewrite upd_length in L. rewrite IH by auto. cbn. assert (j < length ts) by (apply nth_error_Some; congruence).
              destruct (Nat.eqb_spec i j); [lia|reflexivity].
            - rewrite IH by auto. reflexivity. }
          now apply (G _ H). }
        rewrite Z. cbn. lia.
    + destruct (Nat.eq_dec i j) as [->|Ne].
      * rewrite (nth_upd_same _ _ _ _ Hu) in Ht. inversion Ht; subst t.
        pose proof (running _ _ _ _ _ _ R H Hu) as A. cbn [c_heap] in A. rewrite Es in A. destruct A as (_ & _ & Ep & Lf & _).
        cbn [steps_of filter length]. cbn. rewrite Nat.eqb_refl. cbn. destruct (done u') eqn:Dn; auto. right. rewrite Ep.
        destruct (done u) eqn:Du.
        { exfalso. destruct u; try discriminate. cbn in Es. inversion Es; subst. discriminate. }
        specialize (Lf eq_refl). destruct (IH _ _ Hu) as [D|D]; [congruence|lia].
      * rewrite nth_upd_other in Ht by auto. destruct (IH _ _ Ht); auto. right. cbn.
        destruct (Nat.eqb_spec i j); [contradiction|]. cbn. lia.
    + destruct (IH _ _ Ht); auto. right. cbn. lia.
Qed.

(** Once returned, the result stays as long as nobody changes its objects. *)
Lemma by_grows X C e C' l i : cinv X C -> cstep X C e C' -> c_by C l = Some i -> c_by C' l = Some i.
Proof.
  intros [R Bd I] S E. destruct S; cbn [c_heap c_ths c_by] in *; auto.
  unfold mark. destruct (Bd _ _ E). rewrite (proj2 (Nat.leb_gt _ _)) by auto. exact E.
Qed.

Lemma result_keep X s r h by_ h' by_' i :
  reachable X h -> reachable X h' -> length h <= length h' ->
  (forall l, by_ l = Some i -> same_object h h' l) ->
  (forall l, by_' l = Some i <-> by_ l = Some i) -> (forall l, by_ l = Some i -> l < length h) ->
  result_ok X s r h by_ i -> result_ok X s r h' by_' i.
Proof.
  intros R R' N S E Bd. destruct r as [[m|]|e]; cbn; auto. intros (d & A & B & C). exists d. split; [|split; auto].
  - eapply rep_obj_frame; [|exact A]. split; [intros l H; left; now apply E|].
    repeat split; intros l c H Hc; destruct (S l H) as (H1 & H2 & H3 & H4); congruence.
  - apply (tree_keep (mine by_ h i) _ (view h) (view h')); auto; try now apply (view_bounded X).
    + intros l [H|H] L; [exact (S l H)|cbn in L; lia].
    + cbn. intros l L [H|H]; [|lia]. left. now apply E.
    + cbn. intros l L [H|H]; [|lia]. apply E in H. split; [left; auto|auto].
Qed.

Lemma conc_keeps X h0 es C i s r : reachable X h0 -> runs X (conf0 h0) es C ->
  nth_error (c_ths C) i = Some (PDone s r) ->
  (forall c l, In (EvCall c) es -> target c = Some l -> c_by C l <> Some i) ->
  as_alone X s r (c_heap C) (fun l => c_by C l = Some i).
Proof.
  intros R H Ht Hc. apply result_alone. remember (conf0 h0) as C0 eqn:E0. revert Ht Hc.
  induction H as [C|C es C1 e C2 H IH S]; intros Ht Hc; subst; [destruct i; discriminate|].
  pose proof (runs_inv _ _ _ _ R H) as Inv1. pose proof (cstep_inv _ _ _ _ Inv1 S) as Inv2. specialize (IH eq_refl).
  assert (Hc1 : forall c l, In (EvCall c) es -> target c = Some l -> c_by C1 l <> Some i).
  { intros c l Hi Hl Hb. apply (Hc c l); auto; [apply in_or_app; auto|]. exact (by_grows _ _ _ _ _ _ Inv1 S Hb). }
  destruct S as [h ts by_ u|h ts by_ j u u' h' Hu Es|h ts by_ c o h' K Er Hd]; cbn [c_heap c_ths c_by] in *.
  - destruct (Nat.lt_ge_cases i (length ts)) as [L|L].
    + rewrite nth_error_app1 in Ht by auto. auto.
    + rewrite nth_error_app2 in Ht by auto. destruct (i - length ts) as [|[|q]]; cbn in Ht; discriminate.
  - pose proof (running _ _ _ _ _ _ R H Hu) as A. cbn [c_heap c_by] in A. rewrite Es in A.
    destruct A as (R' & N & Ep & Lf & Sm & It & Rs).
    destruct (Nat.eq_dec j i) as [->|Ne].
    + rewrite (nth_upd_same _ _ _ _ Hu) in Ht. inversion Ht; subst u'. destruct (done u) eqn:Du.
      * destruct u as [| |s2 r2]; try discriminate. cbn in Es. inversion Es; subst.
        apply (result_keep X s r h' by_); try apply Inv1; auto using same_object_refl.
        { intros l. unfold mark. destruct (Nat.leb_spec (length h') l); cbn [andb]; [|tauto].
          rewrite (proj2 (Nat.ltb_ge l (length h'))) by auto. tauto. }
        { intros l Hl. apply (ci_by _ _ Inv1 _ _ Hl). }
      * cbn [parsing] in Ep. rewrite Ep. apply Rs; auto. now rewrite <- Ep.
    + rewrite nth_upd_other in Ht by auto. apply (result_keep X s r h by_); try apply Inv1; auto.
      * intros l Hl. apply Sm; [apply (ci_by _ _ Inv1 _ _ Hl)|congruence].
      * intros l. apply mark_other; auto. intros l' j' Hl. apply (ci_by _ _ Inv1 _ _ Hl).
      * intros l Hl. apply (ci_by _ _ Inv1 _ _ Hl).
  - pose proof (ci_reach _ _ Inv1) as Rh. cbn in Rh. pose proof (live_view _ _ Rh) as L.
    destruct (run_one X h (view h) c L K) as (h1 & E1 & L1). rewrite Er in E1. inversion E1; subst h1.
    destruct L1 as [R' P']. pose proof (view_impl _ (reachable_Inv _ _ R')) as Q'. destruct (impl_eq _ _ _ P' Q') as (En & Em & Ea & Ev & Er2).
    assert (N : length h <= length h').
    { destruct (run_call_ok h (view h) c (reachable_Inv _ _ Rh) (proj2 L) K) as (h2 & E2 & _ & Hx & _). rewrite Er in E2. inversion E2; subst. now apply hext_len. }
    apply (result_keep X s r h by_); auto; [|tauto|intros l Hl; apply (ci_by _ _ Inv1 _ _ Hl)].
    intros l Hl. destruct (call_frame c (view h) l (live_bounded _ _ _ L) K) as (G1 & G2 & G3 & G4).
    { cbn. apply (ci_by _ _ Inv1 _ _ Hl). }
    { intros T. apply (Hc c l); auto. apply in_or_app. right. now left. }
    unfold same_object. now rewrite <- Em, <- Ea, <- Ev, <- Er2.
Qed.

(** A goroutine that runs alone computes Parse. *)
Lemma run_done X n s r h : run_alone X n (PDone s r) h = Ok (PDone s r, h).
Proof. induction n; cbn; auto. Qed.
Lemma run_loop X s rest : forall prev st h n, S (length rest) <= n ->
  run_alone X n (PLoop s prev rest st) h =
  match parse_loop X prev rest st h with
  | Ok (st', h') => Ok (PDone s (after_loop st'), h')
  | Panic => Panic | Stuck => Stuck | NoFuel => NoFuel
  end.
Proof.
  induction rest as [|b rest IH]; intros prev st h [|n] L; cbn [length] in L; try lia; cbn [run_alone pstep parse_loop].
  - unfold bind. cbn [ret]. apply run_done.
  - unfold bind. destruct (step X prev b st h) as [[st' h']| | |]; auto. cbn [ret]. apply IH. lia.
Qed.
Lemma alone_parse X s h n : length s + 2 <= n ->
  run_alone X n (PStart s) h =
  match Parse X s h with
  | Ok (r, h') => Ok (PDone s r, h')
  | Panic => Panic | Stuck => Stuck | NoFuel => NoFuel
  end.
Proof.
  intros L. destruct n as [|n]; [lia|]. cbn [run_alone pstep]. unfold Parse. fold (before_loop s).
  destruct (before_loop s) as [|e es].
  - destruct (str_eqb s (lit "{}")).
    + unfold bind. destruct (new_map h) as [[m h']| | |]; auto. cbn [ret]. apply run_done.
    + unfold bind at 1. cbn [ret]. rewrite run_loop by lia. unfold bind.
      destruct (parse_loop X None s pst0 h) as [[st h']| | |]; auto. unfold after_loop.
      destruct (p_errs st); auto. cbv zeta. match goal with |- context [match ?x with [] => _ | _ => _ end] => destruct x end; auto.
  - unfold bind. cbn [ret]. apply run_done.
Qed.

(** Executing a schedule, for the examples. *)
Fixpoint exec (X : ext) (es : list event) (C : conf) : option conf :=
  match es with
  | [] => Some C
  | EvGo s :: es' => exec X es' (Conf (c_heap C) (c_ths C ++ [PStart s]) (c_by C))
  | EvStep i :: es' =>
      match nth_error (c_ths C) i with
      | Some t => match pstep X t (c_heap C) with
                  | Ok (t', h') => exec X es' (Conf h' (upd (c_ths C) i t') (mark (c_by C) i (c_heap C) h'))
                  | _ => None
                  end
      | None => None
      end
  | EvCall c :: es' =>
      match target c with
      | Some m =>
          match c, c_by C m, w_map (view (c_heap C)) m with
          | AMapSetScalarValue _ _ _, None, Some _ =>
              match run_call c (c_heap C) with
              | Ok (_, h') => exec X es' (Conf h' (c_ths C) (c_by C))
              | _ => None
              end
          | _, _, _ => None
          end
      | None => None
      end
  end.
Lemma exec_runs X es : forall C0 es0 C C', runs X C0 es0 C -> exec X es C = Some C' -> runs X C0 (es0 ++ es) C'.
Proof.
  induction es as [|e es IH]; intros C0 es0 C C' H E; cbn [exec] in E.
  - inversion E; subst. now rewrite app_nil_r.
  - assert (G : forall C1, cstep X C e C1 -> exec X es C1 = Some C' -> runs X C0 (es0 ++ e :: es) C').
    { intros C1 S1 E1. change (e :: es) with ([e] ++ es). rewrite app_assoc. eapply IH; [|exact E1]. econstructor; eauto. }
    destruct C as [h ts by_]. cbn [c_heap c_ths c_by] in E. destruct e as [s|i|c].
    + eapply G; [constructor|exact E].
    + destruct (nth_error ts i) as [t|] eqn:Ht; [|discriminate]. destruct (pstep X t h) as [[t' h']| | |] eqn:Es; try discriminate.
      eapply G; [econstructor; eauto|exact E].
    + destruct (target c) as [m|] eqn:T; [|discriminate]. destruct c; try discriminate. cbn in T. inversion T; subst m0.
      destruct (by_ m) eqn:Bm; [discriminate|]. destruct (w_map (view h) m) eqn:Wm; [|discriminate].
      destruct (run_call (AMapSetScalarValue m k s) h) as [[o h']| | |] eqn:Er; try discriminate.
      eapply G; [|exact E]. eapply c_call; eauto; [cbn; eexists; eauto|]. intros l i t Hl Hb. cbn in Hl. inversion Hl; subst. congruence.
Qed.
