(** * Clone on reachable states *)
From Coq Require Import Ascii String List NArith ZArith Bool Lia.
From Verif Require Import GoStr StrLemmas GoNum GoFloat Heap Common ValueModel ArrayModel MapModel JsonModel
  SpecDict DictLemmas SpecWorld Inv World Reach MapFacts ObjFacts SpecDoc RepFacts ParseWorld ParserModel SpecParse ParseTop RenderFacts CycleFacts SpecClone CloneFacts ClonePaths.
Import ListNotations.

(** ** More fuel does not change a result *)
Definition mmono {A} (m m' : M A) : Prop := forall h, m h <> NoFuel -> m' h = m h.
Lemma mm_refl {A} (m : M A) : mmono m m.
Proof. intros h _. reflexivity. Qed.
Lemma mm_bind {A B} (m m' : M A) (k k' : A -> M B) :
  mmono m m' -> (forall a, mmono (k a) (k' a)) -> mmono (bind m k) (bind m' k').
Proof.
  intros H K h N. unfold bind in *. specialize (H h).
  destruct (m h) as [[a h1]| | |]; try congruence; rewrite H by congruence; auto. now apply K.
Qed.

Section Mono.
  Context (X : ext) (f g : ckind -> loc -> M (gres loc)) (H : forall k l, mmono (f k l) (g k l)).

  Lemma clone_map_of_mono v : mmono (clone_map_of f X v) (clone_map_of g X v).
  Proof. apply mm_bind; [apply mm_refl|]. intros [[m|]|e]; auto using mm_refl. Qed.
  Lemma clone_arr_of_mono v : mmono (clone_arr_of f X v) (clone_arr_of g X v).
  Proof. apply mm_bind; [apply mm_refl|]. intros [[m|]|e]; auto using mm_refl. Qed.
  Lemma clone_value_mono v : mmono (clone_value_body f X v) (clone_value_body g X v).
  Proof.
    apply mm_bind; [apply mm_refl|]. intros c. apply mm_bind; [apply mm_refl|]. intros t.
    destruct (common_IsMap t); [|destruct (common_IsArray X t)]; auto using mm_refl.
    - apply mm_bind; [apply clone_map_of_mono|]. auto using mm_refl.
    - apply mm_bind; [apply clone_arr_of_mono|]. auto using mm_refl.
  Qed.
  Lemma clone_key_mono m c k : mmono (clone_key f X m c k) (clone_key g X m c k).
  Proof.
    apply mm_bind; [apply mm_refl|]. intros b1. apply mm_bind; [apply mm_refl|]. intros b2.
    apply mm_bind; [apply mm_refl|]. intros [v|]; destruct b1, b2; auto using mm_refl.
    all: apply mm_bind; auto using mm_refl, clone_map_of_mono, clone_arr_of_mono.
  Qed.
  Lemma clone_keys_mono m c ks : mmono (clone_keys f X m c ks) (clone_keys g X m c ks).
  Proof.
    induction ks as [|k ks IH]; [apply mm_refl|]. cbn [clone_keys]. apply mm_bind; [apply clone_key_mono|].
    intros e. apply mm_bind; auto using mm_refl.
  Qed.
  Lemma clone_map_mono m : mmono (clone_map_body f X m) (clone_map_body g X m).
  Proof.
    apply mm_bind; [apply mm_refl|]. intros c. apply mm_bind; [apply mm_refl|]. intros ks.
    apply mm_bind; [apply clone_keys_mono|]. auto using mm_refl.
  Qed.
  Lemma clone_elem_mono c o : mmono (clone_elem f X c o) (clone_elem g X c o).
  Proof.
    destruct o as [v|]; [|apply mm_refl]. cbn [clone_elem]. apply mm_bind; [apply mm_refl|]. intros t.
    destruct (common_IsMap t); [|destruct (common_IsArray X t)];
      apply mm_bind; auto using mm_refl, clone_map_of_mono, clone_arr_of_mono.
  Qed.
  Lemma clone_elems_mono c l : mmono (clone_elems f X c l) (clone_elems g X c l).
  Proof.
    induction l as [|o l IH]; [apply mm_refl|]. cbn [clone_elems]. apply mm_bind; [apply clone_elem_mono|].
    intros e. apply mm_bind; auto using mm_refl.
  Qed.
  Lemma clone_arr_mono a : mmono (clone_arr_body f X a) (clone_arr_body g X a).
  Proof.
    apply mm_bind; [apply mm_refl|]. intros c. apply mm_bind; [apply mm_refl|]. intros ks.
    apply mm_bind; [apply clone_elems_mono|]. auto using mm_refl.
  Qed.
End Mono.

Lemma clone_S f X k l : clone (S f) X k l = match k with
  | KVal => clone_value_body (clone f X) X l | KMap => clone_map_body (clone f X) X l | KArr => clone_arr_body (clone f X) X l end.
Proof. reflexivity. Qed.
Lemma clone_mono1 X f : forall k l, mmono (clone f X k l) (clone (S f) X k l).
Proof.
  induction f as [|f IH]; intros k l; [intros h N; now cbn in N|].
  rewrite (clone_S (S f)), (clone_S f). destruct k; [apply clone_value_mono|apply clone_map_mono|apply clone_arr_mono]; auto.
Qed.
Lemma clone_mono X n f : n <= f -> forall k l, mmono (clone n X k l) (clone f X k l).
Proof.
  intros L k l. induction L as [|f L IH]; [apply mm_refl|]. intros h N.
  rewrite (clone_mono1 X f k l h); [now apply IH|]. rewrite IH; auto.
Qed.

(** ** Value.Clone *)
Lemma value_ok X f h w v i k : live X h w -> depth k <= f ->
  w_val w v = Some i -> holds_obj w (below (w_next w)) i k ->
  outcome X w k (clone (S f) X KVal v h)
    (fun w' c => made_value w' (w_next w) (w_next w') (Some c) (copy X k)).
Proof.
  intros L D Hv H. destruct (container i) as [z|] eqn:C; [|eapply leaf_ok; eauto].
  pose proof (live_bounded _ _ _ L) as B. assert (Lv : v < w_next w) by (destruct B as (Bv & _); eauto).
  destruct (run_new_value X h w INil L Logic.I) as (h1 & E1 & L1).
  assert (G1 : grows w (new_val w INil)) by now apply grows_newval.
  assert (Hv1 : w_val (new_val w INil) v = Some i) by (cbn; rewrite put_other; [auto|lia]).
  assert (H1 : holds_obj (new_val w INil) (below (w_next (new_val w INil))) i k).
  { assert (H0 : holds_obj (new_val w INil) (below (w_next w)) i k)
      by exact (proj1 (holds_frame_all _ _ _ _ (same_below_keeps _ _ _ (gr_same _ _ G1))) _ _ H).
    exact (proj1 (holds_frame_all _ _ _ _ (below_le (new_val w INil) _ _ (gr_next _ _ G1))) _ _ H0). }
  destruct (child_ok X f h1 (new_val w INil) v i k (clone_ok X f) L1 Hv1 H1 D) as (C1 & C2 & _).
  rewrite clone_S. unfold clone_value_body. rewrite (bind_ok _ _ _ _ _ E1).
  rewrite (lift_ok _ _ h1 (common_GetType X i)) by (unfold value_GetType; now rewrite (live_rd_val _ _ _ _ _ L1 Hv1)).
  assert (Fin : forall (mk : nat -> iface) (q : M (gres nat)), put_obj mk ->
    outcome X (new_val w INil) k (q h1) (fun w' c => made_obj w' (w_next (new_val w INil)) (w_next w') (mk c) (copy X k)) ->
    outcome X w k (bind q (fun r => match r with GErr e => ret (GErr e) | GVal m => bind (value_SetObject (w_next w) (mk m)) (fun _ => ret (GVal (w_next w))) end) h1)
      (fun w' c => made_value w' (w_next w) (w_next w') (Some c) (copy X k))).
  { intros mk q Mk O. unfold outcome in *. destruct (crashes X k); [unfold bind; now rewrite O|].
    destruct O as (h2 & w2 & L2 & G2 & O). destruct (rejects X k) as [|e es].
    - destruct O as (c & O & Mc). rewrite (bind_ok _ _ _ _ _ O).
      assert (V2 : w_val w2 (w_next w) = Some INil).
      { destruct G2 as [_ [_ _ S _]]. rewrite S by (cbn; lia). cbn. apply put_same. }
      destruct (run_ValSet X h2 w2 (w_next w) (mk c) INil L2 V2 (made_ok _ _ _ _ _ _ Mk Mc)) as (h3 & E3 & L3).
      exists h3, (w_setval w2 (w_next w) (mk c)). split; auto. pose proof (gr_next _ _ G2) as N2. cbn in N2. split.
      + destruct G2 as [_ [Sm Sa Sv Sr]]. cbn in *.
        split; cbn; [lia|]. split; cbn; intros l Hl.
        * rewrite Sm by lia. reflexivity.
        * rewrite Sa by lia. reflexivity.
        * rewrite put_other by lia. rewrite Sv by lia. cbn. now rewrite put_other by lia.
        * rewrite Sr by lia. reflexivity.
      + exists (w_next w). rewrite (bind_ok _ _ _ _ _ E3). split; auto.
        apply mv_some with (a := S (w_next w)) (b := w_next w2) (i := mk c); try (cbn; lia).
        * cbn. apply put_same.
        * cbn in Mc. eapply (proj1 (made_frame w2 (w_setval w2 (w_next w) (mk c)))); [exact Mc|lia|lia|].
          intros l Hl. cbn. rewrite put_other by lia. auto.
    - exists h2, w2. split; auto. split; [eapply grows_trans; eauto|]. now rewrite (bind_ok _ _ _ _ _ O). }
  destruct (common_IsMap (common_GetType X i)) eqn:Im.
  { apply (Fin (fun z => IPMap (Some z))); [now left|auto]. }
  assert (Ia : common_IsArray X (common_GetType X i) = true).
  { inversion H as [j Lf|t p s Fp Hp T|j m d es Hi Fm Hm He|j a l ks Hi Fa Ha He]; subst.
    - destruct i as [|s|t [p|]|m|[m|]|a|[a|]|x|[x|]|l|l|[l|]|[l|]|e|[e|]|n|b|[b|]|n|n]; discriminate.
    - discriminate.
    - destruct Hi as [-> | ->]; discriminate.
    - destruct Hi as [-> | ->]; reflexivity. }
  rewrite Ia. apply (Fin (fun z => IPArr (Some z))); [now right|auto].
Qed.

(** ** Contents exist exactly for what Clone can traverse *)
Section Exists.
  Context (X : ext) (h : heap) (w : world) (L : live X h w).

  Lemma leaf_content v i : w_val w v = Some i -> container i = None -> exists k, holds_obj w (below (w_next w)) i k /\ depth k = 1.
  Proof.
    intros Hv C. pose proof Hv as Q. apply (im_val _ _ (proj2 L)) in Q. apply (inv_val _ (reachable_Inv _ _ (proj1 L))) in Q.
    destruct i as [|s|t [p|]|m|[m|]|a|[a|]|x|[x|]|l|l|[l|]|[l|]|e|[e|]|n|b|[b|]|n|n]; cbn in C; try discriminate;
      try (eexists (HLeaf _); split; [apply ho_leaf; reflexivity|reflexivity]).
    cbn in Q. destruct Q as (s & Q & T). apply (im_var _ _ (proj2 L)) in Q.
    exists (HVar s). split; [|reflexivity]. apply ho_var; auto. destruct (live_bounded _ _ _ L) as (_ & Br & _). unfold below. eauto.
  Qed.
  Lemma container_of v i c : w_val w v = Some i -> container i = Some c ->
    (exists d, (i = IMap c \/ i = IPMap (Some c)) /\ w_map w c = Some d)
    \/ (exists l, (i = IArr c \/ i = IPArr (Some c)) /\ w_arr w c = Some l).
  Proof.
    intros H R. pose proof (proj2 L) as P. pose proof (reachable_Inv _ _ (proj1 L)) as V.
    apply (im_val _ _ P) in H. apply (inv_val _ V) in H.
    destruct i as [| |t o|m|o|a|o| | | | |[?|]|[?|]| |[?|]| | |[?|]|[?|]|? [?|]]; cbn in R; try discriminate; try subst o;
      try (inversion R; subst); cbn in H.
    1,2: left; destruct H as [mo H]; destruct (map_dict_ex _ _ _ V H) as [d D]; exists d; (split; [auto|now apply (im_map _ _ P)]).
    all: right; destruct H as [[l H] N]; exists l; (split; [auto|apply (im_arr _ _ P); auto]).
  Qed.

  Lemma elems_content l : (forall v, In (Some v) l -> exists k, holds_value w (below (w_next w)) (Some v) k) ->
    exists ks, holds_elems w (below (w_next w)) l ks.
  Proof.
    induction l as [|[v|] l IH]; intros H.
    - exists []. constructor.
    - destruct (H v (or_introl eq_refl)) as (k & K). destruct IH as (ks & Ks); [intros; apply H; now right|].
      exists (k :: ks). now constructor.
    - destruct IH as (ks & Ks); [intros; apply H; now right|]. exists (HNone :: ks). constructor; auto. constructor.
  Qed.
  Lemma members_content d : (forall x v, In (x, Some v) d -> exists k, holds_value w (below (w_next w)) (Some v) k) ->
    exists ks, holds_members w (below (w_next w)) d ks.
  Proof.
    induction d as [|[x [v|]] d IH]; intros H.
    - exists []. constructor.
    - destruct (H x v (or_introl eq_refl)) as (k & K). destruct IH as (ks & Ks); [intros y u I; apply (H y u); now right|].
      exists ((x, k) :: ks). now constructor.
    - destruct IH as (ks & Ks); [intros y u I; apply (H y u); now right|]. exists ((x, HNone) :: ks). constructor; auto. constructor.
  Qed.

  Lemma stored_ok c x v : slot w c x v -> exists i, w_val w v = Some i.
  Proof.
    pose proof (proj2 L) as P. pose proof (reachable_Inv _ _ (proj1 L)) as V.
    assert (Q : forall a l, nth_error h a = Some (CArr l) -> In (Some v) l -> exists i, w_val w v = Some i).
    { intros a l Ha I. pose proof (inv_arr _ V _ _ Ha) as F. rewrite Forall_forall in F. apply F in I as (i & Hi).
      exists i. now apply (im_val _ _ P). }
    destruct x as [k|n]; cbn; intros (d & D & G).
    - apply (im_map _ _ P) in D as (mo & D & K & Hv & _). apply (Q _ _ Hv).
      clear - G. induction d as [|[k' o'] d IH]; cbn in *; [discriminate|]. destruct (str_eqb k' k); [left; congruence | right; auto].
    - apply (im_arr _ _ P) in D as (D & _). apply (Q _ _ D). eapply nth_error_In; eauto.
  Qed.

  Lemma member_slot m d x v : w_map w m = Some d -> In (x, Some v) d -> slot w m (PKey x) v.
  Proof.
    intros D H. exists d. split; auto. apply dict_in_get; auto. apply (im_map _ _ (proj2 L)) in D. eapply map_dict_ok; eauto.
  Qed.

  Lemma content_bound n : forall c, (forall l, chain w c l -> length l < n) ->
    (forall d, w_map w c = Some d -> exists es, holds_members w (below (w_next w)) d es)
    /\ (forall l, w_arr w c = Some l -> exists ks, holds_elems w (below (w_next w)) l ks).
  Proof.
    induction n as [|n IH]; intros c Hc; [specialize (Hc [] Logic.I); cbn in Hc; lia|].
    assert (Q : forall x v, slot w c x v -> exists k, holds_value w (below (w_next w)) (Some v) k).
    { intros x v S. destruct (stored_ok _ _ _ S) as (i & Hi).
      assert (Fv : below (w_next w) v) by (destruct (live_bounded _ _ _ L) as (Bv & _); unfold below; eauto).
      destruct (container i) as [c'|] eqn:C.
      - assert (St : step w c c') by (exists x, v, i; repeat split; auto using container_refers).
        destruct (IH c') as [IM IA].
        { intros l Cl. specialize (Hc (c' :: l) (conj St Cl)). cbn in Hc. lia. }
        destruct (container_of _ _ _ Hi C) as [(d & Ei & D)|(l & Ei & D)].
        + destruct (IM d D) as (es & E). exists (HMap es). apply hv_some with (i := i); auto.
          eapply ho_map; eauto. destruct (live_bounded _ _ _ L) as (_ & _ & Bm & _). unfold below. eauto.
        + destruct (IA l D) as (es & E). exists (HArr es). apply hv_some with (i := i); auto.
          eapply ho_arr; eauto. destruct (live_bounded _ _ _ L) as (_ & _ & _ & Ba). unfold below. eauto.
      - destruct (leaf_content v i Hi C) as (k & K & _). exists k. apply hv_some with (i := i); auto. }
    split.
    - intros d D. apply members_content. intros x v I. apply (Q (PKey x)). eapply member_slot; eauto.
    - intros l D. apply elems_content. intros v I. apply In_nth_error in I as (j & J). apply (Q (PIndex j)). exists l. auto.
  Qed.

  Lemma step_lt c c' : step w c c' -> c' < w_next w.
  Proof.
    intros (x & v & i & S & Hv & R). destruct (live_bounded _ _ _ L) as (Bv & Br & Bm & Ba).
    destruct (container i) as [z|] eqn:C.
    - rewrite (container_refers _ _ C) in R. inversion R; subst.
      destruct (container_of _ _ _ Hv C) as [(d & _ & D)|(l & _ & D)]; eauto.
    - destruct (leaf_content v i Hv C) as (k & K & _). inversion K; subst; try (unfold leaf in *; congruence).
      + cbn in R. inversion R; subst. eauto.
      + destruct H as [-> | ->]; discriminate.
      + destruct H as [-> | ->]; discriminate.
  Qed.
  Lemma chain_lt l : forall c, chain w c l -> forall x, In x l -> x < w_next w.
  Proof. induction l as [|y l IH]; intros c H x I; [destruct I|]. destruct H as [S H], I as [<-|I]; eauto using step_lt. Qed.

  Lemma acyclic_content c : c < w_next w -> acyclic w c ->
    (forall d, w_map w c = Some d -> exists es, holds_members w (below (w_next w)) d es)
    /\ (forall l, w_arr w c = Some l -> exists ks, holds_elems w (below (w_next w)) l ks).
  Proof.
    intros Lc A. apply (content_bound (w_next w)). intros l C.
    destruct (Nat.lt_ge_cases (length l) (w_next w)) as [|G]; auto. exfalso.
    apply (long_chain w (w_next w) c l C); auto. intros x [<-|I]; auto. eapply chain_lt; eauto.
  Qed.

  (** Where there is a cycle there is no content. *)
  Lemma content_finite : forall n c, endless w c ->
    (forall d es, w_map w c = Some d -> holds_members w (below (w_next w)) d es -> depth (HMap es) <= n -> False)
    /\ (forall l ks, w_arr w c = Some l -> holds_elems w (below (w_next w)) l ks -> depth (HArr ks) <= n -> False).
  Proof.
    induction n as [|n IH]; intros c E; [split; intros; cbn in *; lia|].
    apply endless_step in E as (c' & (x & v & i & S & Hv & R) & E').
    assert (Q : forall k, holds_value w (below (w_next w)) (Some v) k -> depth k <= n -> False).
    { intros k K D. inversion K as [|? j ? Fv Hj Ho]; subst. rewrite Hv in Hj. inversion Hj; subst j.
      destruct (IH c' E') as [IM IA].
      inversion Ho as [j Lf|t p s Fp Hp T|j m d es Hi Fm Hm He|j a l ks Hi Fa Ha He]; subst.
      - unfold leaf in Lf. congruence.
      - cbn in R. inversion R; subst. apply endless_container in E'.
        destruct E' as [[d E']|[l E']].
        + apply (im_map _ _ (proj2 L)) in E' as (mo & E' & _). apply (im_var _ _ (proj2 L)) in Hp. congruence.
        + apply (im_arr _ _ (proj2 L)) in E' as (E' & _). apply (im_var _ _ (proj2 L)) in Hp. congruence.
      - assert (c' = m) as -> by (destruct Hi as [-> | ->]; cbn in R; congruence). eapply IM; eauto.
      - assert (c' = a) as -> by (destruct Hi as [-> | ->]; cbn in R; congruence). eapply IA; eauto. }
    split.
    - intros d es D H Dp. cbn [depth] in Dp. pose proof (max_le _ _ (le_S_n _ _ Dp)) as Dm.
      assert (In (Some v) (map snd d)) as I.
      { destruct x as [k|j]; cbn in S; destruct S as (d' & D' & G).
        - assert (d' = d) as -> by congruence. clear - G. induction d as [|[k' o'] d IH]; cbn in *; [discriminate|].
          destruct (str_eqb k' k); [left; congruence|right; auto].
        - apply (im_map _ _ (proj2 L)) in D as (mo & D & _). apply (im_arr _ _ (proj2 L)) in D' as (D' & _). congruence. }
      clear S D Dp. revert Dm I. induction H as [|y o k d ks Hv' Hr IHr]; intros Dm I; [destruct I|].
      destruct I as [E|I].
      + cbn in E. subst o. apply (Q k); auto. apply (Dm (depth k)). now left.
      + apply IHr; auto. intros z Iz. apply Dm. now right.
    - intros l ks D H Dp. cbn [depth] in Dp. pose proof (max_le _ _ (le_S_n _ _ Dp)) as Dm.
      assert (In (Some v) l) as I.
      { destruct x as [k|j]; cbn in S; destruct S as (d' & D' & G).
        - apply (im_map _ _ (proj2 L)) in D' as (mo & D' & _). apply (im_arr _ _ (proj2 L)) in D as (D & _). congruence.
        - assert (d' = l) as -> by congruence. eapply nth_error_In; eauto. }
      clear S D Dp. revert Dm I. induction H as [|o k l ks Hv' Hr IHr]; intros Dm I; [destruct I|].
      destruct I as [E|I].
      + subst o. apply (Q k); auto. apply (Dm (depth k)). now left.
      + apply IHr; auto. intros z Iz. apply Dm. now right.
  Qed.
End Exists.

(** ** Clone returns only where there is a content *)
Section Back.
  Context (X : ext).

  Record back (f : nat) : Prop := {
    back_map : forall h w m d r, live X h w -> w_map w m = Some d -> clone f X KMap m h = Ok r ->
      exists es, holds_members w (below (w_next w)) d es;
    back_arr : forall h w a l r, live X h w -> w_arr w a = Some l -> clone f X KArr a h = Ok r ->
      exists ks, holds_elems w (below (w_next w)) l ks }.

  (** One stored Value whose conversion returns. *)
  Lemma value_back f h w v i : back f -> live X h w -> w_val w v = Some i ->
    (common_IsMap (common_GetType X i) = true -> exists r, clone_map_of (clone f X) X v h = Ok r) ->
    (common_IsMap (common_GetType X i) = false -> common_IsArray X (common_GetType X i) = true -> exists r, clone_arr_of (clone f X) X v h = Ok r) ->
    exists k, holds_value w (below (w_next w)) (Some v) k.
  Proof.
    intros B L Hv Hm Ha. pose proof (live_rd_val _ _ _ _ _ L Hv) as R.
    destruct (live_bounded _ _ _ L) as (Bv & Br & Bm & Ba).
    assert (Fv : below (w_next w) v) by (unfold below; eauto).
    destruct (container i) as [c|] eqn:C.
    - destruct (container_of X h w L v i c Hv C) as [(d & Ei & D)|(l & Ei & D)].
      + assert (Im : common_IsMap (common_GetType X i) = true) by (destruct Ei as [-> | ->]; reflexivity).
        destruct (Hm Im) as (r & E).
        assert (E2 : clone f X KMap c h = Ok r).
        { rewrite <- E. unfold clone_map_of, bind, mlift, value_GetMap. rewrite R. destruct Ei as [-> | ->]; reflexivity. }
        destruct (back_map _ B _ _ _ _ _ L D E2) as (es & Es). exists (HMap es). apply hv_some with (i := i); auto.
        eapply ho_map; eauto. unfold below. eauto.
      + assert (Im : common_IsMap (common_GetType X i) = false) by (destruct Ei as [-> | ->]; reflexivity).
        assert (Ia : common_IsArray X (common_GetType X i) = true) by (destruct Ei as [-> | ->]; reflexivity).
        destruct (Ha Im Ia) as (r & E).
        assert (E2 : clone f X KArr c h = Ok r).
        { rewrite <- E. unfold clone_arr_of, bind, mlift, value_GetArray. rewrite R. destruct Ei as [-> | ->]; reflexivity. }
        destruct (back_arr _ B _ _ _ _ _ L D E2) as (es & Es). exists (HArr es). apply hv_some with (i := i); auto.
        eapply ho_arr; eauto. unfold below. eauto.
    - destruct (leaf_content X h w L v i Hv C) as (k & K & _). exists k. apply hv_some with (i := i); auto.
  Qed.

  Lemma bind_back {A B} (m : M A) (g : A -> M B) h r : bind m g h = Ok r -> exists a h', m h = Ok (a, h') /\ g a h' = Ok r.
  Proof. unfold bind. destruct (m h) as [[a h']| | |]; try discriminate. eauto. Qed.

  Lemma key_back f h w m d c x o r : back f -> live X h w -> w_map w m = Some d -> dict_get d x = Some o ->
    clone_key (clone f X) X m c x h = Ok r -> exists k, holds_value w (below (w_next w)) o k.
  Proof.
    intros B L Hm Hx E. destruct o as [v|]; [|exists HNone; constructor].
    assert (Hs : slot w m (PKey x) v) by (exists d; auto). destruct (stored_ok X h w L _ _ _ Hs) as (i & Hv).
    pose proof (live_rd_val _ _ _ _ _ L Hv) as R.
    assert (Hm' := Hm). apply (im_map _ _ (proj2 L)) in Hm' as (mo & Nm & Ek & _ & _ & G). apply rd_map_iff in Nm.
    assert (GV : map_GetValue h m x = Ok (Some v)) by (unfold map_GetValue; rewrite Nm; cbn; now rewrite G, Hx).
    assert (Is : forall p, map_is p X h m x = Ok (if common_IsNil i then false else p (common_GetType X i))).
    { intros p. unfold map_is, map_via, map_IsNull. rewrite Nm. cbn [rbind]. rewrite G, Hx.
      rewrite R. cbn [rbind]. destruct (common_IsNil i); auto. rewrite GV. cbn [rbind]. unfold value_is. now rewrite R. }
    destruct (container i) as [z|] eqn:C.
    2: { destruct (leaf_content X h w L v i Hv C) as (k & K & _). exists k. apply hv_some with (i := i); auto.
         destruct (live_bounded _ _ _ L) as (Bv & _). unfold below. eauto. }
    assert (Ni : common_IsNil i = false) by (destruct i as [|s|t [p|]|m0|[m0|]|a|[a|]|x0|[x0|]|l|l|[l|]|[l|]|e|[e|]|n|b|[b|]|n|n]; try discriminate; reflexivity).
    unfold clone_key in E.
    rewrite (lift_ok _ _ h _ (Is common_IsMap)), (lift_ok _ _ h _ (Is (common_IsArray X))), (lift_ok _ _ h _ GV), Ni in E.
    apply (value_back f h w v i B L Hv).
    - intros Im. rewrite Im in E. apply bind_back in E as (a & h1 & E & _). eauto.
    - intros Im Ia. rewrite Im, Ia in E. apply bind_back in E as (a & h1 & E & _). eauto.
  Qed.

  Lemma elem_back f h w c v r : back f -> live X h w -> has (w_val w) v ->
    clone_elem (clone f X) X c (Some v) h = Ok r -> exists k, holds_value w (below (w_next w)) (Some v) k.
  Proof.
    intros B L [i Hv] E. pose proof (live_rd_val _ _ _ _ _ L Hv) as R. unfold clone_elem in E.
    rewrite (lift_ok _ _ h (common_GetType X i)) in E by (unfold value_GetType; now rewrite R).
    apply (value_back f h w v i B L Hv).
    - intros Im. rewrite Im in E. apply bind_back in E as (a & h1 & E & _). eauto.
    - intros Im Ia. rewrite Im, Ia in E. apply bind_back in E as (a & h1 & E & _). eauto.
  Qed.


  (** What an older world stores is described by it. *)
  Lemma holds_old h0 w0 w : live X h0 w0 -> same_below (w_next w0) w0 w -> forall F : nat -> Prop,
    (forall i k, holds_obj w F i k -> (exists v, w_val w0 v = Some i) -> holds_obj w0 (below (w_next w0)) i k)
    /\ (forall o k, holds_value w F o k -> (forall v, o = Some v -> has (w_val w0) v) -> holds_value w0 (below (w_next w0)) o k)
    /\ (forall l ks, holds_elems w F l ks -> (forall v, In (Some v) l -> has (w_val w0) v) -> holds_elems w0 (below (w_next w0)) l ks)
    /\ (forall d ks, holds_members w F d ks -> (forall x v, In (x, Some v) d -> has (w_val w0) v) -> holds_members w0 (below (w_next w0)) d ks).
  Proof.
    intros L [Sm Sa Sv Sr] F. destruct (live_bounded _ _ _ L) as (Bv & Br & Bm & Ba). unfold below.
    assert (CM : forall v i m, w_val w0 v = Some i -> i = IMap m \/ i = IPMap (Some m) -> exists d, w_map w0 m = Some d).
    { intros v i m Hv Hi. assert (C : container i = Some m) by (destruct Hi as [-> | ->]; reflexivity).
      destruct (container_of X h0 w0 L v i m Hv C) as [(d & _ & D)|(l & [Ei|Ei] & D)]; eauto; destruct Hi; congruence. }
    assert (CA : forall v i m, w_val w0 v = Some i -> i = IArr m \/ i = IPArr (Some m) -> exists d, w_arr w0 m = Some d).
    { intros v i m Hv Hi. assert (C : container i = Some m) by (destruct Hi as [-> | ->]; reflexivity).
      destruct (container_of X h0 w0 L v i m Hv C) as [(d & [Ei|Ei] & D)|(l & _ & D)]; eauto; destruct Hi; congruence. }
    assert (G : (forall i k (_ : holds_obj w F i k), (exists v, w_val w0 v = Some i) -> holds_obj w0 (below (w_next w0)) i k)
    /\ (forall o k (_ : holds_value w F o k), (forall v, o = Some v -> has (w_val w0) v) -> holds_value w0 (below (w_next w0)) o k)
    /\ (forall l ks (_ : holds_elems w F l ks), (forall v, In (Some v) l -> has (w_val w0) v) -> holds_elems w0 (below (w_next w0)) l ks)
    /\ (forall d ks (_ : holds_members w F d ks), (forall x v, In (x, Some v) d -> has (w_val w0) v) -> holds_members w0 (below (w_next w0)) d ks)).
    { apply holds_mutind.
      - intros i Lf _. now apply ho_leaf.
      - intros t p s Fp Hp T (v & Hv). pose proof Hv as Q. apply (im_val _ _ (proj2 L)) in Q. apply (inv_val _ (reachable_Inv _ _ (proj1 L))) in Q.
        destruct Q as (s' & Q & T'). apply (im_var _ _ (proj2 L)) in Q. pose proof (Br _ _ Q) as Lp.
        rewrite <- Sr in Q by exact Lp. rewrite Hp in Q. inversion Q; subst. apply ho_var; auto. rewrite <- Sr; auto.
      - intros i m d es Hi Fm Hm He IH (v & Hv). destruct (CM _ _ _ Hv Hi) as (d0 & D0). pose proof (Bm _ _ D0) as Lm.
        assert (d0 = d) as -> by (rewrite <- Sm in D0 by exact Lm; congruence).
        eapply ho_map; eauto. apply IH. intros x u I.
        destruct (stored_ok X h0 w0 L m (PKey x) u) as (j & Hj); [|exists j; auto].
        eapply member_slot; eauto.
      - intros i a l ks Hi Fm Hm He IH (v & Hv). destruct (CA _ _ _ Hv Hi) as (d0 & D0). pose proof (Ba _ _ D0) as Lm.
        assert (d0 = l) as -> by (rewrite <- Sa in D0 by exact Lm; congruence).
        eapply ho_arr; eauto. apply IH. intros u I. apply In_nth_error in I as (n & I).
        destruct (stored_ok X h0 w0 L a (PIndex n) u) as (j & Hj); [|exists j; auto].
        exists l. auto.
      - constructor.
      - intros v i k Fv Hv Ho IH Q. destruct (Q v eq_refl) as (j & Hj). pose proof (Bv _ _ Hj) as Lv.
        assert (j = i) as -> by (rewrite <- Sv in Hj by exact Lv; congruence).
        apply hv_some with (i := i); auto. apply IH. eauto.
      - constructor.
      - intros o k l ks Hv IHv Hl IHl Q. constructor; [apply IHv|apply IHl]; intros v I; apply Q; [left|right]; auto.
      - constructor.
      - intros x o k l ks Hv IHv Hl IHl Q. constructor; [apply IHv|apply IHl].
        + intros v ->. apply (Q x). now left.
        + intros y v I. apply (Q y). now right. }
    intuition auto.
  Qed.

  Lemma keys_back f h0 w0 m d c : back f -> live X h0 w0 -> w_map w0 m = Some d -> w_next w0 <= c -> forall dr h w dc r,
    live X h w -> same_below (w_next w0) w0 w -> w_next w0 <= w_next w -> c < w_next w ->
    (forall x o, In (x, o) dr -> dict_get d x = Some o) -> NoDup (map fst dr) ->
    w_map w c = Some dc -> (forall x, In x (map fst dr) -> dict_get dc x = None) ->
    clone_keys (clone f X) X m c (map fst dr) h = Ok r ->
    exists es, holds_members w0 (below (w_next w0)) dr es.
  Proof.
    intros B L0 Hm0 Lc. assert (Lm : m < w_next w0) by (destruct (live_bounded _ _ _ L0) as (_ & _ & Bm & _); eauto).
    induction dr as [|[x o] dr IH]; intros h w dc r L S Lb Lcw Hd ND Hc Nx E.
    - exists []. constructor.
    - cbn [map fst clone_keys] in E. apply bind_back in E as (e & h1 & E1 & E).
      apply bind_back in E as (e' & h2 & E2 & _).
      assert (Hm : w_map w m = Some d) by (destruct S as [Sm _ _ _]; rewrite Sm; auto).
      destruct (key_back f h w m d c x o (e, h1) B L Hm (Hd x o (or_introl eq_refl)) E1) as (k & K).
      assert (K0 : holds_value w0 (below (w_next w0)) o k).
      { apply (proj1 (proj2 (holds_old h0 w0 w L0 S (below (w_next w))))); auto. intros v ->.
        apply (stored_ok X h0 w0 L0 m (PKey x) v). exists d. split; auto. apply Hd. now left. }
      pose proof (key_ok X (max f (depth k)) h w m d c dc x o k (clone_ok X _) L ltac:(lia) Hm (Hd x o (or_introl eq_refl)) K Lcw Hc (Nx x (or_introl eq_refl))) as Q.
      assert (Same : clone_key (clone (max f (depth k)) X) X m c x h = Ok (e, h1)).
      { rewrite <- E1. apply clone_key_mono; [|congruence]. apply clone_mono. lia. }
      unfold round in Q. rewrite Same in Q. destruct (crashes X k); [discriminate|].
      destruct Q as (h1' & w1 & L1 & U1 & R1 & Ok1 & Keep1). inversion R1; subst e h1'.
      pose proof (bu_next _ _ _ U1) as N1. pose proof (but_same (w_next w0) c w w1 Lb Lc U1) as S1.
      cbn in ND. inversion ND as [|? ? Nin ND']; subst.
      assert (Cx : exists dc1, w_map w1 c = Some dc1 /\ (forall y, In y (map fst dr) -> dict_get dc1 y = None)).
      { destruct (rejects X k) as [|e er] eqn:Er.
        - destruct (Ok1 eq_refl) as (o' & E' & M'). exists (dc ++ [(x, o')]). split; auto.
          intros y Hy. assert (x <> y) by (intros ->; contradiction).
          rewrite <- (dict_set_notin dc x o' (Nx x (or_introl eq_refl))), dict_get_set.
          destruct (str_eqb_spec x y); [contradiction|]. apply Nx. now right.
        - exists dc. split; [apply Keep1; discriminate|]. intros y Hy. apply Nx. now right. }
      destruct Cx as (dc1 & Hc1 & Nx1).
      destruct (IH h1 w1 dc1 (e', h2) L1 (same_trans _ _ _ _ S S1) ltac:(lia) ltac:(lia) (fun y o' I => Hd y o' (or_intror I)) ND' Hc1 Nx1 E2) as (es & Es).
      exists ((x, k) :: es). now constructor.
  Qed.

  Lemma elems_back f h0 w0 a l c : back f -> live X h0 w0 -> w_arr w0 a = Some l -> w_next w0 <= c -> forall lr h w lc r,
    live X h w -> same_below (w_next w0) w0 w -> w_next w0 <= w_next w -> c < w_next w ->
    (forall o, In o lr -> In o l) ->
    w_arr w c = Some lc ->
    clone_elems (clone f X) X c lr h = Ok r ->
    exists es, holds_elems w0 (below (w_next w0)) lr es.
  Proof.
    intros B L0 Hm0 Lc. assert (Lm : a < w_next w0) by (destruct (live_bounded _ _ _ L0) as (_ & _ & _ & Ba); eauto).
    induction lr as [|o lr IH]; intros h w lc r L S Lb Lcw Hd Hc E.
    - exists []. constructor.
    - cbn [clone_elems] in E. apply bind_back in E as (e & h1 & E1 & E).
      apply bind_back in E as (e' & h2 & E2 & _).
      destruct o as [v|]; [|discriminate].
      assert (H0 : has (w_val w0) v).
      { pose proof (Hd (Some v) (or_introl eq_refl)) as I. apply In_nth_error in I as (n & I).
        apply (stored_ok X h0 w0 L0 a (PIndex n) v). exists l. auto. }
      assert (Hv : has (w_val w) v).
      { destruct H0 as [i Hi]. exists i. destruct S as [_ _ Sv _]. rewrite Sv; auto.
        destruct (live_bounded _ _ _ L0) as (Bv & _). eauto. }
      destruct (elem_back f h w c v (e, h1) B L Hv E1) as (k & K).
      assert (K0 : holds_value w0 (below (w_next w0)) (Some v) k).
      { apply (proj1 (proj2 (holds_old h0 w0 w L0 S (below (w_next w))))); auto. now intros u [= <-]. }
      assert (NN : is_none k = false) by (inversion K as [|? i ? ? ? Ho]; subst; destruct k; auto; inversion Ho).
      pose proof (elem_ok X (max f (depth k)) h w c lc (Some v) k (clone_ok X _) L ltac:(lia) K NN Lcw Hc) as Q.
      assert (Same : clone_elem (clone (max f (depth k)) X) X c (Some v) h = Ok (e, h1)).
      { rewrite <- E1. apply clone_elem_mono; [|congruence]. apply clone_mono. lia. }
      unfold round in Q. rewrite Same in Q. destruct (crashes X k); [discriminate|].
      destruct Q as (h1' & w1 & L1 & U1 & R1 & Ok1 & Keep1). inversion R1; subst e h1'.
      pose proof (bu_next _ _ _ U1) as N1. pose proof (but_same (w_next w0) c w w1 Lb Lc U1) as S1.
      assert (Cx : exists dc1, w_arr w1 c = Some dc1).
      { destruct (rejects X k) as [|e er] eqn:Er.
        - destruct (Ok1 eq_refl) as (o' & E' & M'). eauto.
        - exists lc. apply Keep1. discriminate. }
      destruct Cx as (dc1 & Hc1).
      destruct (IH h1 w1 dc1 (e', h2) L1 (same_trans _ _ _ _ S S1) ltac:(lia) ltac:(lia) (fun o' I => Hd o' (or_intror I)) Hc1 E2) as (es & Es).
      exists (k :: es). now constructor.
  Qed.

  Lemma clone_back f : back f.
  Proof.
    induction f as [|f B]; [split; intros; discriminate|]. split.
    - intros h w m d r L Hm E. rewrite clone_S in E. unfold clone_map_body in E. pose proof (live_bounded _ _ _ L) as Bd.
      destruct (run_new_map X h w L) as (h1 & E1 & L1). pose proof (grows_newmap w Bd) as G1.
      rewrite (bind_ok _ _ _ _ _ E1) in E.
      assert (Lm : m < w_next w) by (destruct Bd as (_ & _ & Bm & _); eauto).
      assert (Hm1 : w_map (w_newmap w) m = Some d) by (cbn; rewrite put_other; [auto|lia]).
      assert (Od : dict_ok d) by (apply (im_map _ _ (proj2 L1)) in Hm1; eapply map_dict_ok; eauto).
      assert (Hm' := Hm1). apply (im_map _ _ (proj2 L1)) in Hm' as (mo & Nm & Ek & _).
      rewrite (lift_ok _ _ h1 (map fst d)) in E by (unfold map_GetKeys; apply rd_map_iff in Nm; rewrite Nm; cbn; now rewrite Ek).
      apply bind_back in E as (e & h2 & E & _).
      apply (keys_back f h w m d (S (w_next w)) B L Hm (Nat.le_succ_diag_r _) d h1 (w_newmap w) [] (e, h2) L1 (gr_same _ _ G1)); try (cbn; lia); auto.
      + intros x o I. now apply dict_in_get.
      + cbn. apply put_same.
    - intros h w m d r L Hm E. rewrite clone_S in E. unfold clone_arr_body in E. pose proof (live_bounded _ _ _ L) as Bd.
      destruct (run_new_array X h w L) as (h1 & E1 & L1). pose proof (grows_newarr w Bd) as G1.
      rewrite (bind_ok _ _ _ _ _ E1) in E.
      assert (Lm : m < w_next w) by (destruct Bd as (_ & _ & _ & Ba); eauto).
      assert (Hm1 : w_arr (w_newarr w) m = Some d) by (cbn; rewrite put_other; [auto|lia]).
      assert (Hm' := Hm1). apply (im_arr _ _ (proj2 L1)) in Hm' as (Na & _).
      rewrite (lift_ok _ _ h1 d) in E by (unfold arr_GetValues; now apply rd_arr_iff in Na).
      apply bind_back in E as (e & h2 & E & _).
      apply (elems_back f h w m d (w_next w) B L Hm (le_n _) d h1 (w_newarr w) [] (e, h2) L1 (gr_same _ _ G1)); try (cbn; lia); auto.
      cbn. apply put_same.
  Qed.
End Back.
