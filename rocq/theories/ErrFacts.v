(** * Lists of errors *)
From Coq Require Import Ascii String List NArith ZArith Bool Lia.
From Verif Require Import GoStr StrLemmas GoNum GoFloat Heap Common ValueModel ArrayModel MapModel JsonModel ParserModel
  SpecDict DictLemmas SpecWorld Inv World Reach MapFacts GetterFacts GetterLift SpecDoc RepFacts SpecRender RenderFacts ParseWorld SpecParse ParseFacts
  CycleFacts ObjFacts ParseTop SpecClone SpecHistory CloneFacts CloneTop CloneResults SpecEdit EditFacts SpecRound RoundFacts RoundMore SerialFacts.
Import ListNotations.

Section S.
  Context (X : ext).

  Lemma set_doc h tn F m es k i e o h' :
    reachable X h -> rep_obj tn (view h) F (IMap m) (DMap es) -> ok_object (view h) i ->
    rep_obj tn (view h) (fun l => l <> m) i e -> run_call (AMapSet m k i) h = Ok (o, h') ->
    reachable X h' /\ has (w_map (view h')) m /\ rep_obj tn (view h') (fun _ => True) (IMap m) (DMap (dict_set es k e))
    /\ SpecWorld.object_at (view h') m k = Some i.
  Proof.
    intros R Rep OI Ri E.
    assert (Hm : has (w_map (view h)) m).
    { inversion Rep as [|? _ N| | | | | | | | |? ? ? ? [Q|Q] _ W _|? ? ? ? [Q|Q] _ W _]; try discriminate Q; subst.
      injection Q as ->. eexists. eauto. }
    assert (OK : ok_call (view h) (AMapSet m k i)) by (split; auto).
    assert (S0 : stands_for tn (view h) m (DMap es)).
    { apply sf_map. eapply rep_obj_frame; [|exact Rep]. apply keeps_on_mono. auto. }
    pose proof (edit_effect X h tn _ m (DMap es) e o h' R OK eq_refl S0 Ri E) as S1.
    destruct (MapFacts.run_one X h _ R OK) as (h1 & E1 & R1 & P1). rewrite E in E1. injection E1 as _ <-.
    pose proof (view_impl _ (reachable_Inv _ _ R1)) as I1.
    destruct (impl_eq _ _ _ P1 I1) as (_ & Em & Ea & Ev & Er).
    assert (Hm' : has (w_map (view h')) m).
    { unfold has. rewrite <- Em. cbn. rewrite put_same. eauto. }
    split; [exact R1|]. split; [exact Hm'|]. split.
    - apply (map_rep tn (view h') (impl_one_kind _ _ I1) m _ S1 Hm').
    - unfold SpecWorld.object_at, map_at. rewrite <- Em. cbn [spec_call snd set_map w_map new_val]. rewrite put_same. cbn [the].
      rewrite dict_get_set, str_eqb_refl. rewrite <- Ev. cbn. apply put_same.
  Qed.

  Lemma get_errors_list h m k l :
    reachable X h -> has (w_map (view h)) m -> SpecWorld.object_at (view h) m k = Some (IErrs l) ->
    map_GetErrors X h m k = Ok (GVal (if x_known X TErrs || x_is_array X TErrs then l else [])).
  Proof.
    intros R Hm O. pose proof (reachable_Inv _ _ R) as I.
    destruct (map_via_present h I m k (IErrs l) Hm O eq_refl) as (v & Hv & _ & _ & Vi).
    unfold map_GetErrors. rewrite Vi. unfold value_GetErrors, rd_val. rewrite Hv. cbn [rbind].
    unfold iface_IsNil, common_recognised, common_GetType. cbn.
    destruct (x_known X TErrs), (x_is_array X TErrs); reflexivity.
  Qed.

  Definition says (w : world) (o : option nat) (t : str) : Prop :=
    exists v i, o = Some v /\ w_val w v = Some i /\ scalar_of w i = Some (SStr t).

  Lemma conv_elem h o t : reachable X h -> says (view h) o t -> conv_string X h (IPVal o) = Ok (GVal t).
  Proof.
    intros R (v & i & -> & W & S). pose proof (reachable_Inv _ _ R) as I.
    pose proof (view_impl _ I) as P. apply (im_val _ _ P) in W.
    destruct (deref_scalar h i _ (inv_val h I _ _ W) S) as [D E].
    unfold conv_string. cbn [common_IsNil]. unfold rd_val. rewrite W. cbn [rbind]. unfold conv_held.
    destruct (denotes_type X h i _ E) as [->| ->]; rewrite D; reflexivity.
  Qed.

  Lemma conv_elems h l ts : reachable X h -> Forall2 (says (view h)) l ts -> conv_strings X h l = Ok (ts, []).
  Proof.
    intros R H. induction H as [|o t l ts S H IH]; [reflexivity|]. cbn [conv_strings].
    rewrite (conv_elem h o t R S). cbn [rbind]. rewrite IH. reflexivity.
  Qed.

  Lemma get_errors_array h m k a l ts i :
    reachable X h -> has (w_map (view h)) m -> i = IArr a \/ i = IPArr (Some a) ->
    SpecWorld.object_at (view h) m k = Some i ->
    w_arr (view h) a = Some l -> Forall2 (says (view h)) l ts ->
    map_GetErrors X h m k = Ok (GVal (map Plain ts)).
  Proof.
    intros R Hm Ei O A S. pose proof (reachable_Inv _ _ R) as I.
    assert (nil_object i = false) as N by (destruct Ei as [->| ->]; reflexivity).
    destruct (map_via_present h I m k i Hm O N) as (v & Hv & _ & _ & Vi).
    unfold map_GetErrors. rewrite Vi. unfold value_GetErrors, rd_val. rewrite Hv. cbn [rbind].
    apply (im_arr _ _ (view_impl _ I)) in A as [A _].
    assert (iface_IsNil X i = false) as Q.
    { unfold iface_IsNil, common_recognised, common_GetType. destruct Ei as [->| ->]; reflexivity. }
    rewrite Q. assert (rd_arr h a = Ok l) as Ra by (unfold rd_arr; now rewrite A).
    destruct Ei as [->| ->]; rewrite Ra; cbn [rbind]; rewrite (conv_elems h l ts R S); reflexivity.
  Qed.

  Lemma rep_says tn w F o t : rep_value tn w F o (DScal (SStr t)) -> says w o t.
  Proof.
    intros H. inversion H as [|v i d Fv W Ro]; subst. exists v, i. split; [auto|]. split; [auto|].
    inversion Ro; subst; auto.
  Qed.

  Lemma get_errors_doc h tn F m k es ts :
    reachable X h -> rep_obj tn (view h) F (IMap m) (DMap es) -> dict_get es k = Some (DArr (map (fun t => DScal (SStr t)) ts)) ->
    map_GetErrors X h m k = Ok (GVal (map Plain ts)).
  Proof.
    intros R Rep G.
    inversion Rep as [|? _ N| | | | | | | | |? ? d ? [Q|Q] _ W Rm|? ? ? ? [Q|Q] _ W _]; try discriminate Q; subst.
    injection Q as <-. pose proof (rep_members_get _ _ _ _ _ k Rm) as M. rewrite G in M.
    destruct (dict_get d k) as [o|] eqn:Gd; [|contradiction]. inversion M as [|v i ? Fv Wv Ro]; subst.
    assert (O : SpecWorld.object_at (view h) m k = Some i) by (unfold SpecWorld.object_at, map_at; rewrite W; cbn [the]; now rewrite Gd).
    inversion Ro as [| | | | | | | | | | |? a l ds Ei _ Wa Re]; subst. eapply get_errors_array; eauto; [eexists; eauto|].
    apply rep_elems_F2 in Re. clear - Re. remember (map (fun t => DScal (SStr t)) ts) as ds eqn:E. revert ts E.
    induction Re as [|o d l ds V _ IH]; intros [|t ts] E; try discriminate; constructor.
    - injection E as -> _. eapply rep_says; eauto.
    - apply IH. now injection E.
  Qed.

  Lemma back_get es es' k d : Forall2 (fun kd kd' => fst kd = fst kd' /\ comes_back (snd kd) (snd kd')) es es' ->
    dict_get es k = Some d -> exists d', dict_get es' k = Some d' /\ comes_back d d'.
  Proof.
    induction 1 as [|[k1 d1] [k2 d2] es es' [E C] H IH]; cbn; [discriminate|]. cbn in E, C. subst k2.
    destruct (str_eqb k1 k); [|exact IH]. intros Q. injection Q as ->. eauto.
  Qed.

  Lemma Forall_set {A} (P : str * A -> Prop) es k e : Forall P es -> P (k, e) -> Forall P (dict_set es k e).
  Proof.
    intros H Pk. induction H as [|[k1 d1] es Pd H IH]; cbn; [auto|]. destruct (str_eqb k1 k) eqn:E; constructor; auto.
    apply str_eqb_eq in E. now subst.
  Qed.

  Lemma errors_round h F m es k l o h1 b h2 :
    reachable X h -> escape_ok X -> rep_obj (x_typed_nil X) (view h) F (IMap m) (DMap es) ->
    proper (x_is64 X) (DMap es) -> writable (DMap es) -> safe k -> ~ In c_dq k -> Forall safe l ->
    run_call (AMapSet m k (IErrs (map Plain l))) h = Ok (o, h1) -> reachable X h2 ->
    exists n s m2 h3,
      (forall fuel, n <= fuel -> map_ToJSONString fuel X h1 m (Some b) = Ok (Some (b ++ s), []))
      /\ shows (DMap (dict_set es k (DTexts l))) s
      /\ Parse X s h2 = Ok (GVal (Some m2), h3) /\ map_GetErrors X h3 m2 k = Ok (GVal (map Plain l)).
  Proof.
    intros R EX Rep P W Sk Nk Sl E R2.
    destruct (set_doc h _ F m es k (IErrs (map Plain l)) (DTexts l) o h1 R Rep Logic.I (rep_errs _ _ _ _) E) as (R1 & Hm & Rep1 & _).
    destruct (round_trip X h1 _ m _ b h2 R1 EX Rep1) as (n & s & d' & J & S & C & Q); auto.
    - inversion P as [| | | | |? Pf]; subst. constructor. apply Forall_set; auto. cbn. constructor.
    - inversion W as [| | | | | |? Wf]; subst. constructor. apply Forall_set; auto. cbn. split; [auto|]. split; auto. now constructor.
    - destruct Q as (h3 & m2 & Ep & R3 & U3 & Rep3 & _). exists n, s, m2, h3. split; [exact J|]. split; [exact S|]. split; [exact Ep|].
      inversion C as [| | | | | | | | | |? es' C']; subst.
      destruct (back_get _ _ k (DTexts l) C') as (d' & G & Cb); [now rewrite dict_get_set, str_eqb_refl|].
      inversion Cb; subst. eapply get_errors_doc; eauto.
  Qed.

  Lemma errors_text h F m es k l o h1 b :
    reachable X h -> escape_ok X -> rep_obj (x_typed_nil X) (view h) F (IMap m) (DMap es) ->
    proper (x_is64 X) (DMap es) -> run_call (AMapSet m k (IErrs (map Plain l))) h = Ok (o, h1) ->
    exists n s, shows (DMap (dict_set es k (DTexts l))) s
      /\ forall fuel, n <= fuel -> map_ToJSONString fuel X h1 m (Some b) = Ok (Some (b ++ s), []).
  Proof.
    intros R EX Rep P E.
    destruct (set_doc h _ F m es k (IErrs (map Plain l)) (DTexts l) o h1 R Rep Logic.I (rep_errs _ _ _ _) E) as (R1 & Hm & Rep1 & _).
    apply (map_text X h1 _ m _ b R1 EX Rep1). inversion P as [| | | | |? Pf]; subst. constructor. apply Forall_set; auto. cbn. constructor.
  Qed.

  Lemma errors_get h m k l o h1 :
    reachable X h -> has (w_map (view h)) m -> run_call (AMapSet m k (IErrs l)) h = Ok (o, h1) ->
    map_GetErrors X h1 m k = Ok (GVal (if x_known X TErrs || x_is_array X TErrs then l else [])).
  Proof.
    intros R Hm E. assert (OK : ok_call (view h) (AMapSet m k (IErrs l))) by (split; [auto|exact Logic.I]).
    destruct (MapFacts.run_one X h _ R OK) as (h2 & E1 & R1 & P1). rewrite E in E1. injection E1 as _ <-.
    pose proof (view_impl _ (reachable_Inv _ _ R1)) as I1.
    destruct (impl_eq _ _ _ P1 I1) as (_ & Em & Ea & Ev & Er). apply get_errors_list; auto.
    - unfold has. rewrite <- Em. cbn. rewrite put_same. eauto.
    - unfold SpecWorld.object_at, map_at. rewrite <- Em. cbn [spec_call snd set_map w_map new_val]. rewrite put_same. cbn [the].
      rewrite dict_get_set, str_eqb_refl. rewrite <- Ev. cbn. apply put_same.
  Qed.

  Lemma errors_clone h F m es k l o h1 n c h2 :
    (forall t, ~ In "%"%char t -> x_errorf X t = t) ->
    reachable X h -> rep_obj (x_typed_nil X) (view h) F (IMap m) (DMap es) ->
    run_call (AMapSet m k (IErrs (map Plain l))) h = Ok (o, h1) -> clone n X KMap m h1 = Ok (GVal c, h2) ->
    Forall (fun t => ~ In "%"%char t) l ->
    exists es2, rep_obj (x_typed_nil X) (view h2) (made_in h1 h2) (IMap c) (DMap es2) /\ dict_get es2 k = Some (DTexts l).
  Proof.
    intros EF R Rep E C Fl.
    destruct (set_doc h _ F m es k (IErrs (map Plain l)) (DTexts l) o h1 R Rep Logic.I (rep_errs _ _ _ _) E) as (R1 & Hm & Rep1 & _).
    destruct (clone_document X n h1 _ m _ c h2 R1 Rep1 C) as (R2 & _ & Rep2). cbn [copy_doc] in Rep2.
    eexists. split; [exact Rep2|]. clear - EF Fl.
    assert (G : forall es, dict_get (map (fun kd => (fst kd, copy_doc X (snd kd))) (dict_set es k (DTexts l))) k = Some (copy_doc X (DTexts l))).
    { intros q. induction q as [|[k1 d1] q IH]; cbn [dict_set map fst snd dict_get]; [now rewrite str_eqb_refl|].
      destruct (str_eqb k1 k) eqn:E; cbn [map fst snd dict_get]; rewrite ?E, ?str_eqb_refl; auto. }
    rewrite G. clear G. cbn [copy_doc]. f_equal. f_equal. induction Fl as [|t l N Fl IH]; cbn; [auto|]. rewrite EF by auto. now f_equal.
  Qed.
End S.
