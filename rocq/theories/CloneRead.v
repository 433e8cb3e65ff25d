(** * The getters of a clone *)
From Coq Require Import Ascii String List NArith ZArith Bool Lia.
From Verif Require Import GoStr StrLemmas GoNum GoFloat Heap Common ValueModel ArrayModel MapModel JsonModel ParserModel ReadModel
  SpecDict DictLemmas SpecNum NumLemmas SpecWorld Inv World Reach MapFacts GetterFacts GetterLift GetterMore ArrayGet SpecFloat FloatFacts SpecDoc RepFacts
  SpecText SpecToken SpecParse SpecRender SpecRound SpecRead ReadFacts SpecTrip TripFacts SpecRepeat RepeatFacts SpecClone SpecHistory CloneResults.
Import ListNotations.

Section Inv.
  Context (h : heap) (F : nat -> Prop).
  Let w := view h.
  Lemma holds_map_inv i es : holds_obj w F i (HMap es) ->
    exists m d, (i = IMap m \/ i = IPMap (Some m)) /\ w_map w m = Some d /\ holds_members w F d es.
  Proof. intros H. inversion H; subst; eauto. Qed.
  Lemma holds_arr_inv i ks : holds_obj w F i (HArr ks) ->
    exists a l, (i = IArr a \/ i = IPArr (Some a)) /\ w_arr w a = Some l /\ holds_elems w F l ks.
  Proof. intros H. inversion H; subst; eauto. Qed.
  Lemma holds_is_map i m k : holds_obj w F i k -> i = IMap m \/ i = IPMap (Some m) -> exists es, k = HMap es.
  Proof.
    intros H E. inversion H as [j Lf|t p s Fp Hp T|j m0 d0 es Hi Fm Hm He|j a l0 ks Hi Fa Ha He]; subst; eauto.
    - unfold leaf in Lf. destruct E as [->| ->]; discriminate.
    - destruct E; discriminate.
    - destruct E as [->| ->], Hi; discriminate.
  Qed.
  Lemma holds_is_arr i m k : holds_obj w F i k -> i = IArr m \/ i = IPArr (Some m) -> exists ks, k = HArr ks.
  Proof.
    intros H E. inversion H as [j Lf|t p s Fp Hp T|j m0 d0 es Hi Fm Hm He|j a l0 ks Hi Fa Ha He]; subst; eauto.
    - unfold leaf in Lf. destruct E as [->| ->]; discriminate.
    - destruct E; discriminate.
    - destruct E as [->| ->], Hi; discriminate.
  Qed.
  Lemma holds_get d es k : holds_members w F d es ->
    match dict_get d k with
    | Some o => exists e, dict_get es k = Some e /\ holds_value w F o e
    | None => dict_get es k = None
    end.
  Proof. induction 1 as [|x o e l ks V _ IH]; cbn; auto. destruct (str_eqb x k); eauto. Qed.
  Lemma holds_nth l ks n : holds_elems w F l ks ->
    match nth_error l n with
    | Some o => exists e, nth_error ks n = Some e /\ holds_value w F o e
    | None => nth_error ks n = None
    end.
  Proof. intros H. revert n. induction H as [|o e l ks V _ IH]; intros [|n]; cbn; eauto. apply IH. Qed.
  Lemma holds_keys d es : holds_members w F d es -> map fst d = map fst es.
  Proof. induction 1; cbn; congruence. Qed.
  Lemma holds_length l ks : holds_elems w F l ks -> length l = length ks.
  Proof. induction 1; cbn; congruence. Qed.
End Inv.

Lemma copy_get X (es : list (str * content)) k :
  dict_get (map (fun xk => (fst xk, copy X (snd xk))) es) k = option_map (copy X) (dict_get es k).
Proof. induction es as [|[x e] es IH]; cbn; auto. now destruct (str_eqb x k). Qed.
Lemma copy_some X w F o k : holds_value w F o (copy X k) -> exists v i, o = Some v /\ w_val w v = Some i /\ holds_obj w F i (copy X k).
Proof. intros H. inversion H as [E|v i e Fv Wv Hv]; subst; eauto. destruct k; discriminate. Qed.

Section Two.
  Context (X : ext) (h h' : heap) (F F' : nat -> Prop).
  Hypothesis R : reachable X h.
  Hypothesis R' : reachable X h'.
  Let w := view h.
  Let w' := view h'.
  Let P : impl h w := view_impl _ (reachable_Inv _ _ R).
  Let P' : impl h' w' := view_impl _ (reachable_Inv _ _ R').

  Definition pair (i i' : iface) : Prop := exists k, holds_obj w F i k /\ holds_obj w' F' i' (copy X k).

  Lemma pair_keys i i' m m' : pair i i' -> i = IMap m \/ i = IPMap (Some m) -> i' = IMap m' \/ i' = IPMap (Some m') -> same_keys h h' m m'.
  Proof.
    intros (k & H & H') E E'. destruct (holds_is_map _ _ _ _ _ H E) as [es ->].
    apply holds_map_inv in H as (m0 & d & Hi & Wm & M). apply holds_map_inv in H' as (m1 & d' & Hi' & Wm' & M').
    assert (m0 = m) as -> by (destruct Hi as [Q|Q], E as [Q'|Q']; congruence).
    assert (m1 = m') as -> by (destruct Hi' as [Q|Q], E' as [Q'|Q']; congruence).
    unfold same_keys, map_GetKeys.
    apply (im_map _ _ P) in Wm as (mo & Hm & Ek & _). apply (im_map _ _ P') in Wm' as (mo' & Hm' & Ek' & _).
    rewrite (proj2 (rd_map_iff _ _ _) Hm), (proj2 (rd_map_iff _ _ _) Hm'). cbn [rbind]. rewrite Ek, Ek'.
    unfold dict_keys. rewrite (holds_keys _ _ _ _ M), (holds_keys _ _ _ _ M'), map_map. reflexivity.
  Qed.
  Lemma pair_length i i' a a' : pair i i' -> i = IArr a \/ i = IPArr (Some a) -> i' = IArr a' \/ i' = IPArr (Some a') -> same_length h h' a a'.
  Proof.
    intros (k & H & H') E E'. destruct (holds_is_arr _ _ _ _ _ H E) as [ks ->].
    apply holds_arr_inv in H as (m0 & d & Hi & Wm & M). apply holds_arr_inv in H' as (m1 & d' & Hi' & Wm' & M').
    assert (m0 = a) as -> by (destruct Hi as [Q|Q], E as [Q'|Q']; congruence).
    assert (m1 = a') as -> by (destruct Hi' as [Q|Q], E' as [Q'|Q']; congruence).
    apply (im_arr _ _ P) in Wm as [Wm _]. apply rd_arr_iff in Wm. apply (im_arr _ _ P') in Wm' as [Wm' _]. apply rd_arr_iff in Wm'.
    unfold same_length, arr_Len. rewrite Wm, Wm'. cbn [rbind].
    rewrite (holds_length _ _ _ _ M), (holds_length _ _ _ _ M'), map_length. reflexivity.
  Qed.

  Lemma pair_fetch i i' c c' x v : pair i i' -> container_of i c -> container_of i' c' ->
    match x with PKey _ => i = IMap c \/ i = IPMap (Some c) | PIndex _ => i = IArr c \/ i = IPArr (Some c) end ->
    fetch h c x = Ok (Some v) ->
    exists v' j j', fetch h' c' x = Ok (Some v') /\ w_val w v = Some j /\ w_val w' v' = Some j' /\ pair j j'.
  Proof.
    intros (k & H & H') Co Co' Kd E. destruct x as [x|n]; cbn [fetch] in *.
    - destruct (holds_is_map _ _ _ _ _ H Kd) as [es ->]. cbn [copy] in H'.
      apply holds_map_inv in H as (m0 & d & Hi & Wm & M). apply holds_map_inv in H' as (m1 & d' & Hi' & Wm' & M').
      assert (m0 = c) as -> by (destruct Hi as [Q|Q], Kd as [Q'|Q']; congruence).
      assert (m1 = c') as -> by (destruct Co' as [->|[->|[->| ->]]]; destruct Hi' as [Q|Q]; congruence).
      rewrite (map_GetValue_impl h w P) in E by (now exists d). unfold map_at, w in E. rewrite Wm in E. cbn [the] in E.
      rewrite (map_GetValue_impl h' w' P') by (now exists d'). unfold map_at, w'. rewrite Wm'. cbn [the].
      pose proof (holds_get _ _ _ _ x M) as G. pose proof (holds_get _ _ _ _ x M') as G'. rewrite copy_get in G'.
      destruct (dict_get d x) as [o|]; cbn [the] in E; [|discriminate]. injection E as ->.
      destruct G as (e & G & V). rewrite G in G'. cbn [option_map] in G'.
      destruct (dict_get d' x) as [o'|]; [|discriminate]. destruct G' as (e' & Q & V'). injection Q as <-.
      apply copy_some in V' as (v' & j' & -> & Wv' & V'). inversion V as [|? j ? Fv Wv Rv]; subst.
      exists v', j, j'. split; auto. split; auto. split; auto. exists e. auto.
    - destruct (holds_is_arr _ _ _ _ _ H Kd) as [es ->]. cbn [copy] in H'.
      apply holds_arr_inv in H as (m0 & d & Hi & Wm & M). apply holds_arr_inv in H' as (m1 & d' & Hi' & Wm' & M').
      assert (m0 = c) as -> by (destruct Hi as [Q|Q], Kd as [Q'|Q']; congruence).
      assert (m1 = c') as -> by (destruct Co' as [->|[->|[->| ->]]]; destruct Hi' as [Q|Q]; congruence).
      apply (im_arr _ _ P) in Wm as [Wm _]. apply rd_arr_iff in Wm. apply (im_arr _ _ P') in Wm' as [Wm' _]. apply rd_arr_iff in Wm'.
      unfold arr_GetValues in *. rewrite Wm in E. rewrite Wm'. cbn [rbind] in *.
      pose proof (holds_nth _ _ _ _ n M) as G. pose proof (holds_nth _ _ _ _ n M') as G'. rewrite nth_error_map in G'.
      destruct (nth_error d n) as [o|]; [|discriminate]. injection E as ->.
      destruct G as (e & G & V). rewrite G in G'. cbn [option_map] in G'.
      destruct (nth_error d' n) as [o'|]; [|discriminate]. destruct G' as (e' & Q & V'). injection Q as <-.
      apply copy_some in V' as (v' & j' & -> & Wv' & V'). inversion V as [|? j ? Fv Wv Rv]; subst.
      exists v', j, j'. split; auto. split; auto. split; auto. exists e. auto.
  Qed.

  Lemma pair_enter v v' j j' x c : w_val w v = Some j -> w_val w' v' = Some j' -> pair j j' ->
    enter X h v x = Ok (GVal (Some c)) ->
    exists c', enter X h' v' x = Ok (GVal (Some c')) /\ container_of j' c'
      /\ match x with PKey _ => j = IMap c \/ j = IPMap (Some c) | PIndex _ => j = IArr c \/ j = IPArr (Some c) end.
  Proof.
    intros Wv Wv' (k & H & H') E. pose proof (val_cell _ _ _ (reachable_Inv _ _ R) Wv) as Cv. apply rd_val_iff in Cv.
    destruct x as [x|n]; cbn [enter] in *.
    - assert (K : j = IMap c \/ j = IPMap (Some c)).
      { unfold value_GetMap in E. rewrite Cv in E. cbn [rbind] in E. destruct (iface_IsNil X j); [discriminate|].
        destruct j; try discriminate; injection E as ->; auto. }
      destruct (holds_is_map _ _ _ _ _ H K) as [es ->]. cbn [copy] in H'.
      apply holds_map_inv in H' as (m1 & d' & Hi' & Wm' & M').
      exists m1. split; [apply (map_answers X h' v' j' R' Wv' m1 Hi')|]. split; auto. unfold container_of. tauto.
    - assert (K : j = IArr c \/ j = IPArr (Some c)).
      { unfold value_GetArray in E. rewrite Cv in E. cbn [rbind] in E. destruct (iface_IsNil X j); [discriminate|].
        destruct j; try discriminate; injection E as ->; auto. }
      destruct (holds_is_arr _ _ _ _ _ H K) as [es ->]. cbn [copy] in H'.
      apply holds_arr_inv in H' as (m1 & d' & Hi' & Wm' & M').
      exists m1. split; [apply (array_answers X h' v' j' R' Wv' m1 Hi')|]. split; auto. unfold container_of. tauto.
  Qed.

  Lemma pair_go p : forall i i' c c' x v, pair i i' -> container_of i c -> container_of i' c' ->
    match x with PKey _ => i = IMap c \/ i = IPMap (Some c) | PIndex _ => i = IArr c \/ i = IPArr (Some c) end ->
    go X h c x p = Ok (GVal (Some v)) ->
    exists v' j j', go X h' c' x p = Ok (GVal (Some v')) /\ w_val w v = Some j /\ w_val w' v' = Some j' /\ pair j j'.
  Proof.
    induction p as [|y q IH]; intros i i' c c' x v Pr Co Co' Kd E; cbn [go] in *.
    - destruct (fetch h c x) as [o| | |] eqn:G; cbn [rbind] in E; try discriminate. injection E as ->.
      destruct (pair_fetch i i' c c' x v Pr Co Co' Kd G) as (v' & j & j' & -> & A & B & C). cbn [rbind]. exists v', j, j'. auto.
    - destruct (fetch h c x) as [[v1|]| | |] eqn:G; cbn [rbind] in E; try discriminate.
      destruct (pair_fetch i i' c c' x v1 Pr Co Co' Kd G) as (v1' & j & j' & -> & Wv & Wv' & Pj). cbn [rbind].
      destruct (enter X h v1 y) as [[[c1|]|]| | |] eqn:En; cbn [rbind] in E; try discriminate.
      destruct (pair_enter v1 v1' j j' y c1 Wv Wv' Pj En) as (c1' & -> & Co1' & Kd1). cbn [rbind].
      apply (IH j j' c1 c1' y v Pj); auto. unfold container_of. destruct y; tauto.
  Qed.

  Lemma pair_reads v v' i i' : w_val w v = Some i -> w_val w' v' = Some i' -> pair i i' -> ordinary i -> reads_same X h v h' v'.
  Proof.
    intros Wv Wv' Pr Or.
    assert (Oi : ok_iface h i) by (eapply (inv_val _ (reachable_Inv _ _ R)), val_cell; eauto using reachable_Inv).
    assert (Nil : forall k, holds_obj w F i k -> holds_obj w' F' i' (copy X k) -> nil_object i = true -> reads_same X h v h' v').
    { intros k H H' N. assert (Z : common_IsNil i = true) by now rewrite <- nil_object_IsNil.
      assert (Lf : k = HLeaf i) by (inversion H; subst; try discriminate; auto; destruct H0; subst; discriminate). subst k.
      assert (Z' : common_IsNil i' = true).
      { cbn [copy] in H'. inversion H' as [j Lf Q| | |]; subst.
        destruct i as [|s|t [p|]|m|[m|]|a|[a|]|u|[u|]|l|l|[l|]|[l|]|s|[s|]|tm|fn|[fn|]|[tm|]|nm [d|]]; try discriminate; try contradiction; cbn;
          try destruct (x_typed_nil X); reflexivity. }
      apply (same_null X h v i h' v' i' R Wv R' Wv').
      - unfold iface_IsNil. now rewrite Z.
      - intros s. destruct i as [|s0|t [p|]|m|[m|]|a|[a|]|u|[u|]|l|l|[l|]|[l|]|s0|[s0|]|tm|fn|[fn|]|[tm|]|nm [d|]]; try discriminate.
      - unfold iface_IsNil. now rewrite Z'. }
    pose proof Pr as (k & H & H').
    destruct i as [|s|t [p|]|m|[m|]|a|[a|]|u|[u|]|l|l|[l|]|[l|]|s|[s|]|tm|fn|[fn|]|[tm|]|nm [d|]]; try contradiction; try (now apply (Nil k)).
    - assert (k = HLeaf (IScal s)) as -> by (inversion H; subst; auto; destruct H0; discriminate).
      assert (i' = IScal s) as -> by (cbn in H'; inversion H'; auto).
      apply (same_scalar X h v _ h' v' _ R Wv R' Wv' s); now left.
    - inversion H as [j Lf|t0 p0 s Fp Hp T|j m d es Hi|j a l ks Hi]; subst; try discriminate; try (destruct Hi; discriminate).
      cbn in H'. inversion H' as [j Lf|t0 p0 s0 Fp' Hp' T'|j m d es Hi|j a l ks Hi]; subst; try (destruct Hi; discriminate).
      apply (same_scalar X h v _ h' v' _ R Wv R' Wv' s); right; eexists; (split; [reflexivity|]); [exact (proj1 (im_var _ _ P _ _) Hp)|exact (proj1 (im_var _ _ P' _ _) Hp')].
    - destruct (holds_is_map _ _ _ _ _ H (or_introl eq_refl)) as [es ->]. pose proof H' as Hc. cbn [copy] in Hc. apply holds_map_inv in Hc as (m1 & d' & Hi' & _).
      apply (same_container X h v _ h' v' _ R Wv R' Wv' m m1); unfold container_of; [tauto..|].
      apply (maps_alike X h v _ h' v' _ R Wv R' Wv' m m1); auto. eapply pair_keys; eauto.
    - destruct (holds_is_map _ _ _ _ _ H (or_intror eq_refl)) as [es ->]. pose proof H' as Hc. cbn [copy] in Hc. apply holds_map_inv in Hc as (m1 & d' & Hi' & _).
      apply (same_container X h v _ h' v' _ R Wv R' Wv' m m1); unfold container_of; [tauto..|].
      apply (maps_alike X h v _ h' v' _ R Wv R' Wv' m m1); auto. eapply pair_keys; eauto.
    - destruct (holds_is_arr _ _ _ _ _ H (or_introl eq_refl)) as [es ->]. pose proof H' as Hc. cbn [copy] in Hc. apply holds_arr_inv in Hc as (m1 & d' & Hi' & _).
      apply (same_container X h v _ h' v' _ R Wv R' Wv' a m1); unfold container_of; [tauto..|].
      apply (arrays_alike X h v _ h' v' _ R Wv R' Wv' a m1); auto. eapply pair_length; eauto.
    - destruct (holds_is_arr _ _ _ _ _ H (or_intror eq_refl)) as [es ->]. pose proof H' as Hc. cbn [copy] in Hc. apply holds_arr_inv in Hc as (m1 & d' & Hi' & _).
      apply (same_container X h v _ h' v' _ R Wv R' Wv' a m1); unfold container_of; [tauto..|].
      apply (arrays_alike X h v _ h' v' _ R Wv R' Wv' a m1); auto. eapply pair_length; eauto.
  Qed.
End Two.

Definition boxed (kd : ckind) (c : nat) : iface := match kd with KArr => IArr c | _ => IMap c end.

Lemma clone_reads X n h kd m c h' : reachable X h -> exists_in h kd m -> kd <> KVal -> clone n X kd m h = Ok (GVal c, h') ->
  (kd = KMap -> same_keys h h' m c) /\ (kd = KArr -> same_length h h' m c)
  /\ forall x p v, match x with PKey _ => kd = KMap | PIndex _ => kd = KArr end -> go X h m x p = Ok (GVal (Some v)) ->
       exists i v', w_val (view h) v = Some i /\ go X h' c x p = Ok (GVal (Some v'))
         /\ (ordinary i -> reads_same X h v h' v').
Proof.
  intros R Ex NV E. destruct (returned X n kd m h (GVal c) h' R Ex E) as (R' & _ & k & K & _ & _ & G).
  apply good_content in G as [G _].
  assert (Pr : pair X h h' (old_in h) (made_in h h') (boxed kd m) (boxed kd c)) by (exists k; destruct kd; try congruence; auto).
  assert (Co : container_of (boxed kd m) m /\ container_of (boxed kd c) c) by (unfold container_of; destruct kd; cbn; auto).
  split; [|split].
  - intros ->. eapply pair_keys; eauto; now left.
  - intros ->. eapply pair_length; eauto; now left.
  - intros x p v Kd Go.
    destruct (pair_go X h h' _ _ R R' p (boxed kd m) (boxed kd c) m c x v Pr (proj1 Co) (proj2 Co)) as (v' & j & j' & A & B & C & D); auto.
    { destruct x; subst kd; now left. }
    exists j, v'. split; auto. split; auto. intros Or. eapply pair_reads; eauto.
Qed.

Lemma clone_value_reads X n h v i c h' : reachable X h -> w_val (view h) v = Some i -> clone n X KVal v h = Ok (GVal c, h') ->
  ordinary i -> reads_same X h v h' c.
Proof.
  intros R Wv E Or. assert (Ex : exists_in h KVal v) by (exists i; exact Wv).
  destruct (returned X n KVal v h (GVal c) h' R Ex E) as (R' & _ & k & K & _ & _ & G).
  apply good_content in G as [G _]. cbn in K, G.
  inversion K as [|? j ? Fv Wv1 Hv]; subst. apply copy_some in G as (v' & j' & Q & Wv' & Hv'). injection Q as <-.
  rewrite Wv in Wv1. injection Wv1 as <-. eapply (pair_reads X h h' (old_in h) (made_in h h')); eauto. exists k. auto.
Qed.

Lemma clone_map_reads : forall X n h m c h',
  reachable X h -> exists_in h KMap m -> clone n X KMap m h = Ok (GVal c, h') ->
  same_keys h h' m c
  /\ forall k p v, go X h m (PKey k) p = Ok (GVal (Some v)) ->
       exists i v', w_val (view h) v = Some i /\ go X h' c (PKey k) p = Ok (GVal (Some v'))
         /\ (ordinary i -> reads_same X h v h' v').
Proof.
  intros X n h m c h' R Ex E. destruct (clone_reads X n h KMap m c h' R Ex ltac:(discriminate) E) as (A & _ & B).
  split; [exact (A eq_refl)|]. intros k p v G. exact (B (PKey k) p v eq_refl G).
Qed.

Lemma clone_array_reads : forall X n h a c h',
  reachable X h -> exists_in h KArr a -> clone n X KArr a h = Ok (GVal c, h') ->
  same_length h h' a c
  /\ forall j p v, go X h a (PIndex j) p = Ok (GVal (Some v)) ->
       exists i v', w_val (view h) v = Some i /\ go X h' c (PIndex j) p = Ok (GVal (Some v'))
         /\ (ordinary i -> reads_same X h v h' v').
Proof.
  intros X n h m c h' R Ex E. destruct (clone_reads X n h KArr m c h' R Ex ltac:(discriminate) E) as (_ & A & B).
  split; [exact (A eq_refl)|]. intros k p v G. exact (B (PIndex k) p v eq_refl G).
Qed.
