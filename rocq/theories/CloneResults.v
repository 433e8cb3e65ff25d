(** * The theorems about Clone *)
From Coq Require Import Ascii String List NArith ZArith Bool Lia.
From Verif Require Import GoStr StrLemmas GoNum GoFloat Heap Common ValueModel ArrayModel MapModel JsonModel
  SpecDict DictLemmas SpecWorld Inv World Reach MapFacts ObjFacts SpecDoc RepFacts ParseWorld ParserModel SpecParse ParseTop RenderFacts CycleFacts ParseFacts TypedFacts SpecText SpecToken SpecNum SpecFloat SpecRender SpecRound SpecJson ShowFacts RoundFacts RoundMore SerialFacts
  SpecClone SpecHistory CloneFacts ClonePaths CloneTop.
Import ListNotations.

Section Top.
  Context (X : ext).

  (** What a Clone of content [k] in state [h] does, with enough fuel. *)
  Definition result (h : heap) (k : content) (r : res (gres nat * heap)) (good : heap -> nat -> Prop) : Prop :=
    if crashes X k then r = Panic
    else exists h', reachable X h' /\ unchanged h h' /\
      match rejects X k with
      | [] => exists c, r = Ok (GVal c, h') /\ good h' c
      | e => r = Ok (GErr e, h')
      end.

  Lemma grows_unchanged h h' w' : reachable X h -> live X h' w' -> grows (view h) w' -> unchanged h h'.
  Proof.
    intros R L' G. pose proof (live_view _ _ R) as L.
    assert (S : same_below (w_next (view h)) (view h) (view h')).
    { apply (same_below_impl _ _ w'); [apply L'|apply view_impl, (reachable_Inv _ _ (proj1 L'))|apply G]. }
    destruct S as [A B C D]. intros l Hl. split; [apply A|split; [apply B|split; [apply C|apply D]]]; exact Hl.
  Qed.

  Lemma outcome_result h k r (good : world -> nat -> Prop) (good' : heap -> nat -> Prop) :
    reachable X h -> outcome X (view h) k r good ->
    (forall h' w' c, live X h' w' -> grows (view h) w' -> good w' c -> good' h' c) -> result h k r good'.
  Proof.
    intros R O G. unfold outcome, result in *. destruct (crashes X k); auto.
    destruct O as (h' & w' & L' & Gr & O). exists h'. split; [apply L'|]. split; [eapply grows_unchanged; eauto|].
    destruct (rejects X k); auto. destruct O as (c & E & Gc). exists c. split; eauto.
  Qed.

  Lemma holds_anywhere h (F : nat -> Prop) i k : reachable X h -> holds_obj (view h) F i k ->
    holds_obj (view h) (below (w_next (view h))) i k.
  Proof.
    intros R H. pose proof (live_bounded _ _ _ (live_view _ _ R)) as B.
    apply (proj1 (holds_frame_all _ _ _ _ (bounded_below _ B))).
    apply (proj1 (holds_frame_all _ _ _ _ (keeps_on_mono (view h) F anywhere (fun _ _ => Logic.I)))). exact H.
  Qed.

  Definition good_copy (h : heap) (i : nat -> iface) (k : content) (h' : heap) (c : nat) : Prop :=
    holds_obj (view h') (made_in h h') (i c) (copy X k) /\ no_sharing (view h') c.
  Definition good_value (h : heap) (k : content) (h' : heap) (c : nat) : Prop :=
    holds_value (view h') (made_in h h') (Some c) (copy X k)
    /\ (forall i z, w_val (view h') c = Some i -> refers i = Some z -> no_sharing (view h') z).

  Lemma made_view h h' w' i k : reachable X h -> live X h' w' ->
    made_obj w' (w_next (view h)) (w_next w') i k -> holds_obj (view h') (made_in h h') i k.
  Proof.
    intros R L' M. apply (proj1 (holds_frame_all _ _ _ _ (keeps_impl (made_in h h') w' h' (proj2 L') (view_impl _ (reachable_Inv _ _ (proj1 L')))))).
    apply (proj1 (made_holds w') _ _ _ _ M). intros l Hl. rewrite (im_next _ _ (proj2 L')) in Hl. exact Hl.
  Qed.

  Lemma map_result h (F : nat -> Prop) m k : reachable X h -> holds_obj (view h) F (IMap m) k ->
    exists n, forall fuel, n <= fuel -> result h k (clone fuel X KMap m h) (good_copy h IMap k).
  Proof.
    intros R H. pose proof (live_view _ _ R) as L. apply holds_anywhere in H; auto.
    inversion H as [j Lf|t p s Fp Hp T|j m0 d es Hi Fm Hm He|j a l ks Hi Fa Ha He]; subst.
    - discriminate Lf.
    - destruct Hi as [E|E]; inversion E; subst m0. exists (depth (HMap es)). intros f Lf.
      eapply outcome_result; [exact R|apply (rec_map _ _ (clone_ok X f) h (view h) m d es L Lf Hm He)|].
      intros h' w' c L' G M. split.
      + pose proof (made_view _ _ _ _ _ R L' M) as Q. cbn [copy] in Q |- *.
        inversion Q as [j Lf'|t p s Fp Hp T|j m1 d1 es1 Hi1 Fm1 Hm1 He1|j a l ks Hi1 Fa Ha He1]; subst.
        destruct Hi1 as [E1|E1]; inversion E1; subst m1. eapply ho_map; eauto.
      + eapply no_sharing_impl; [apply L'|apply view_impl, (reachable_Inv _ _ (proj1 L'))|].
        exact (made_no_sharing X h' w' L' _ _ _ _ c M eq_refl).
    - destruct Hi; discriminate.
  Qed.
  Lemma arr_result h (F : nat -> Prop) m k : reachable X h -> holds_obj (view h) F (IArr m) k ->
    exists n, forall fuel, n <= fuel -> result h k (clone fuel X KArr m h) (good_copy h IArr k).
  Proof.
    intros R H. pose proof (live_view _ _ R) as L. apply holds_anywhere in H; auto.
    inversion H as [j Lf|t p s Fp Hp T|j m0 d es Hi Fm Hm He|j a l ks Hi Fa Ha He]; subst.
    - discriminate Lf.
    - destruct Hi; discriminate.
    - destruct Hi as [E|E]; inversion E; subst a. exists (depth (HArr ks)). intros f Lf.
      eapply outcome_result; [exact R|apply (rec_arr _ _ (clone_ok X f) h (view h) m l ks L Lf Ha He)|].
      intros h' w' c L' G M. split.
      + pose proof (made_view _ _ _ _ _ R L' M) as Q. cbn [copy] in Q |- *.
        inversion Q as [j Lf'|t p s Fp Hp T|j m1 d1 es1 Hi1 Fm1 Hm1 He1|j a1 l1 ks1 Hi1 Fa1 Ha1 He1]; subst.
        destruct Hi1 as [E1|E1]; inversion E1; subst a1. eapply ho_arr; eauto.
      + eapply no_sharing_impl; [apply L'|apply view_impl, (reachable_Inv _ _ (proj1 L'))|].
        exact (made_no_sharing X h' w' L' _ _ _ _ c M eq_refl).
  Qed.
  Lemma value_result h (F : nat -> Prop) v k : reachable X h -> holds_value (view h) F (Some v) k ->
    exists n, forall fuel, n <= fuel -> result h k (clone fuel X KVal v h) (good_value h k).
  Proof.
    intros R H. pose proof (live_view _ _ R) as L. inversion H as [|? i ? Fv Hv Ho]; subst. apply holds_anywhere in Ho; auto.
    exists (S (depth k)). intros [|f] Lf; [lia|].
    eapply outcome_result; [exact R|apply (value_ok X f h (view h) v i k L (le_S_n _ _ Lf) Hv Ho)|].
    intros h' w' c L' G M. pose proof (view_impl _ (reachable_Inv _ _ (proj1 L'))) as P'. split.
    - apply (proj1 (proj2 (holds_frame_all _ _ _ _ (keeps_impl (made_in h h') w' h' (proj2 L') P')))).
      apply (proj1 (proj2 (made_holds w')) _ _ _ _ M). intros l Hl. rewrite (im_next _ _ (proj2 L')) in Hl. exact Hl.
    - intros j z Hj Rj. inversion M as [? ? a b ? i0 ? Lv Hv' Mo]; subst.
      destruct (impl_eq _ _ _ (proj2 L') P') as (_ & _ & _ & Ev & _). rewrite <- Ev, Hv' in Hj. inversion Hj; subst j.
      eapply no_sharing_impl; [apply L'|exact P'|]. exact (made_no_sharing X h' w' L' _ _ _ _ z Mo Rj).
  Qed.

  (** *** Results that are known to be returned *)
  Lemma clone_det n k l h r : clone n X k l h = Ok r -> forall f, n <= f -> clone f X k l h = Ok r.
  Proof. intros E f L. rewrite <- E. apply (clone_mono X n f L k l h). congruence. Qed.

  Definition has_content (h : heap) (kd : ckind) (l : nat) (k : content) : Prop :=
    match kd with
    | KMap => holds_obj (view h) (old_in h) (IMap l) k
    | KArr => holds_obj (view h) (old_in h) (IArr l) k
    | KVal => holds_value (view h) (old_in h) (Some l) k
    end.
  Definition good_clone (h : heap) (kd : ckind) (k : content) : heap -> nat -> Prop :=
    match kd with
    | KMap => good_copy h IMap k
    | KArr => good_copy h IArr k
    | KVal => good_value h k
    end.

  Lemma any_result h kd l k : reachable X h -> has_content h kd l k ->
    exists n, forall fuel, n <= fuel -> result h k (clone fuel X kd l h) (good_clone h kd k).
  Proof. intros R H. destruct kd; [eapply value_result|eapply map_result|eapply arr_result]; eauto. Qed.

  Lemma returned_content n kd l h r : reachable X h -> exists_in h kd l -> clone n X kd l h = Ok r ->
    exists k, has_content h kd l k.
  Proof.
    intros R H E. pose proof (live_view _ _ R) as L. destruct (live_bounded _ _ _ L) as (Bv & Br & Bm & Ba).
    destruct kd; cbn in H; destruct H as [x Hx].
    - destruct n as [|n]; [discriminate|]. rewrite clone_S in E. unfold clone_value_body in E.
      destruct (run_new_value X h (view h) INil L Logic.I) as (h1 & E1 & L1).
      rewrite (bind_ok _ _ _ _ _ E1) in E.
      assert (Lv : l < w_next (view h)) by eauto.
      assert (Hv1 : w_val (new_val (view h) INil) l = Some x) by (cbn in *; rewrite put_other; [auto|lia]).
      rewrite (lift_ok _ _ h1 (common_GetType X x)) in E by (unfold value_GetType; now rewrite (live_rd_val _ _ _ _ _ L1 Hv1)).
      destruct (value_back X n h1 (new_val (view h) INil) l x (clone_back X n) L1 Hv1) as (k & K).
      + intros Im. rewrite Im in E. apply bind_back in E as (a & h2 & E & _). eauto.
      + intros Im Ia. rewrite Im, Ia in E. apply bind_back in E as (a & h2 & E & _). eauto.
      + exists k. apply (proj1 (proj2 (holds_old X h (view h) (new_val (view h) INil) L (gr_same _ _ (grows_newval _ _ (live_bounded _ _ _ L))) _))) in K; auto.
        intros u [= <-]. exists x. auto.
    - destruct (back_map _ _ (clone_back X n) h (view h) l x r L Hx E) as (es & Es).
      exists (HMap es). cbn. eapply ho_map; eauto. unfold old_in. cbn in Bm. eauto.
    - destruct (back_arr _ _ (clone_back X n) h (view h) l x r L Hx E) as (es & Es).
      exists (HArr es). cbn. eapply ho_arr; eauto. unfold old_in. cbn in Ba. eauto.
  Qed.

  Lemma returned n kd l h r h' : reachable X h -> exists_in h kd l -> clone n X kd l h = Ok (r, h') ->
    reachable X h' /\ unchanged h h' /\
    exists k, has_content h kd l k /\ crashes X k = false
      /\ match r with
         | GVal c => rejects X k = [] /\ good_clone h kd k h' c
         | GErr e => e = rejects X k /\ e <> []
         end.
  Proof.
    intros R H E. destruct (returned_content _ _ _ _ _ R H E) as (k & K).
    destruct (any_result h kd l k R K) as (n' & Q). specialize (Q (max n n') (Nat.le_max_r _ _)).
    rewrite (clone_det _ _ _ _ _ E _ (Nat.le_max_l n n')) in Q. unfold result in Q.
    destruct (crashes X k) eqn:C; [discriminate|]. destruct Q as (h2 & R2 & U2 & Q).
    destruct (rejects X k) as [|e es] eqn:Re.
    - destruct Q as (c & Eq & G). inversion Eq; subst. split; auto. split; auto. exists k. auto.
    - inversion Q; subst. split; auto. split; auto. exists k. rewrite Re. repeat split; auto. discriminate.
  Qed.

  (** With content the result is the same for all fuel from some point on. *)
  Lemma settled h kd l k : reachable X h -> has_content h kd l k ->
    exists n r, (forall fuel, n <= fuel -> clone fuel X kd l h = r) /\ result h k r (good_clone h kd k).
  Proof.
    intros R K. destruct (any_result h kd l k R K) as (n & Q). exists n, (clone n X kd l h). split; [|apply Q; lia].
    intros f L. apply clone_mono; auto. specialize (Q n (le_n _)). unfold result in Q.
    destruct (crashes X k); [congruence|]. destruct Q as (h' & _ & _ & Q). destruct (rejects X k); [destruct Q as (c & Q & _)|]; congruence.
  Qed.

  Lemma acyclic_has_content h kd l : reachable X h -> exists_in h kd l ->
    match kd with KVal => forall i c, w_val (view h) l = Some i -> refers i = Some c -> acyclic (view h) c | _ => acyclic (view h) l end ->
    exists k, has_content h kd l k.
  Proof.
    intros R H A. pose proof (live_view _ _ R) as L. destruct (live_bounded _ _ _ L) as (Bv & Br & Bm & Ba).
    destruct kd; cbn in H; destruct H as [x Hx].
    - assert (Fl : old_in h l) by (unfold old_in; cbn in Bv; eauto).
      destruct (container x) as [c|] eqn:C.
      + specialize (A x c Hx (container_refers _ _ C)).
        destruct (container_of X h (view h) L l x c Hx C) as [(d & Ei & D)|(d & Ei & D)].
        * destruct (acyclic_content X h (view h) L c (Bm _ _ D) A) as [Q _]. destruct (Q d D) as (es & Es).
          exists (HMap es). cbn. apply hv_some with (i := x); auto. eapply ho_map; eauto. unfold old_in. cbn in Bm. eauto.
        * destruct (acyclic_content X h (view h) L c (Ba _ _ D) A) as [_ Q]. destruct (Q d D) as (es & Es).
          exists (HArr es). cbn. apply hv_some with (i := x); auto. eapply ho_arr; eauto. unfold old_in. cbn in Ba. eauto.
      + destruct (leaf_content X h (view h) L l x Hx C) as (k & K & _). exists k. cbn. apply hv_some with (i := x); auto.
    - destruct (acyclic_content X h (view h) L l (Bm _ _ Hx) A) as [Q _]. destruct (Q x Hx) as (es & Es).
      exists (HMap es). cbn. eapply ho_map; eauto. unfold old_in. cbn in Bm. eauto.
    - destruct (acyclic_content X h (view h) L l (Ba _ _ Hx) A) as [_ Q]. destruct (Q x Hx) as (es & Es).
      exists (HArr es). cbn. eapply ho_arr; eauto. unfold old_in. cbn in Ba. eauto.
  Qed.

  Lemma cyclic_no_content h l k : reachable X h -> (exists p c q, object_at (view h) l p c /\ object_at (view h) c q c /\ q <> []) ->
    ~ holds_obj (view h) (old_in h) (IMap l) k /\ ~ holds_obj (view h) (old_in h) (IArr l) k.
  Proof.
    intros R E. pose proof (live_view _ _ R) as L. destruct (content_finite X h (view h) L (depth k) l E) as [QM QA].
    split; intros H; inversion H as [j Lf|t p s Fp Hp T|j m0 d es Hi Fm Hm He|j a l0 ks Hi Fa Ha He]; subst; try discriminate;
      destruct Hi as [E1|E1]; inversion E1; subst; eauto.
  Qed.
  Lemma cyclic_never n kd l h r : reachable X h -> exists_in h kd l ->
    (exists p c q, object_at (view h) l p c /\ object_at (view h) c q c /\ q <> []) -> kd <> KVal -> clone n X kd l h <> Ok r.
  Proof.
    intros R H E K Q. destruct (returned_content _ _ _ _ _ R H Q) as (k & C).
    destruct (cyclic_no_content h l k R E) as [QM QA]. destruct kd; cbn in C; auto.
  Qed.

  (** ** Independence *)
  Lemma call_keeps w c (F : nat -> Prop) : bounded w -> ok_call w c -> (forall t, target c = Some t -> ~ F t) ->
    keeps_on w (snd (spec_call c w)) F F.
  Proof.
    intros (Bv & Br & Bm & Ba) K T. split; [auto|].
    assert (NN : forall l d, w_map w l = Some d -> l <> w_next w /\ l <> S (w_next w)) by (intros l d H; apply Bm in H; lia).
    assert (NA : forall l d, w_arr w l = Some d -> l <> w_next w /\ l <> S (w_next w)) by (intros l d H; apply Ba in H; lia).
    assert (NV : forall l d, w_val w l = Some d -> l <> w_next w /\ l <> S (w_next w)) by (intros l d H; apply Bv in H; lia).
    assert (NR : forall l d, w_var w l = Some d -> l <> w_next w /\ l <> S (w_next w)) by (intros l d H; apply Br in H; lia).
    assert (TT : forall t l, target c = Some t -> F l -> l <> t) by (intros t l Et Fl ->; eapply T; eauto).
    destruct c; cbn in TT |- *;
      repeat match goal with |- context [if ?b then _ else _] => destruct b end; cbn;
      (split; [|split; [|split]]); intros l0 d0 Fl H; auto;
      repeat (rewrite put_other; [auto|]);
      try (destruct (NN _ _ H); auto; congruence); try (destruct (NA _ _ H); auto; congruence);
      try (destruct (NV _ _ H); auto; congruence); try (destruct (NR _ _ H); auto; congruence);
      try (apply not_eq_sym; apply (TT _ _ eq_refl Fl)); try (apply (TT _ _ eq_refl Fl)).
  Qed.

  Lemma unchanged_keeps h h' F : reachable X h -> unchanged h h' -> keeps_on (view h) (view h') F F.
  Proof.
    intros R U. destruct (live_bounded _ _ _ (live_view _ _ R)) as (Bv & Br & Bm & Ba). split; [auto|].
    repeat split; intros l d _ H.
    - destruct (U l (Bm _ _ H)) as (E & _). congruence.
    - destruct (U l (Ba _ _ H)) as (_ & E & _). congruence.
    - destruct (U l (Bv _ _ H)) as (_ & _ & E & _). congruence.
    - destruct (U l (Br _ _ H)) as (_ & _ & _ & E). congruence.
  Qed.
  Lemma keeps_trans w1 w2 w3 (F : nat -> Prop) : keeps_on w1 w2 F F -> keeps_on w2 w3 F F -> keeps_on w1 w3 F F.
  Proof.
    intros (_ & A1 & A2 & A3 & A4) (_ & B1 & B2 & B3 & B4). split; [auto|]. repeat split; intros; eauto.
  Qed.

  Lemma Parse_unchanged h s r h' : reachable X h -> Parse X s h = Ok (r, h') -> reachable X h' /\ unchanged h h'.
  Proof.
    intros R E. destruct (parse_outcomes X h s R) as [P|[(e & _ & h1 & P & R1 & U1)|(d & _ & h1 & m & P & R1 & U1 & _)]];
      rewrite E in P; inversion P; subst; auto.
  Qed.

  Lemma history_keeps F h h' : history X F h h' -> reachable X h -> reachable X h' /\ keeps_on (view h) (view h') F F.
  Proof.
    induction 1 as [h|h c o h1 h2 K T E H IH|h s r h1 h2 E H IH|h n k l r h1 h2 Ex E H IH]; intros R.
    - split; auto. apply keeps_on_mono. auto.
    - destruct (run_one X h (view h) c (live_view _ _ R) K) as (h1' & E1 & L1). rewrite E in E1. inversion E1; subst h1' o.
      destruct IH as [R2 K2]; [apply L1|]. split; auto. eapply keeps_trans; [|exact K2].
      eapply keeps_trans; [apply (call_keeps (view h) c F); auto; apply (live_bounded _ _ _ (live_view _ _ R))|].
      apply keeps_impl; [apply L1|]. apply view_impl, (reachable_Inv _ _ (proj1 L1)).
    - destruct (Parse_unchanged h s r h1 R E) as [R1 U1]. destruct (IH R1) as [R2 K2]. split; auto.
      eapply keeps_trans; [|exact K2]. now apply unchanged_keeps.
    - destruct (returned _ _ _ _ _ _ R Ex E) as (R1 & U1 & _). destruct (IH R1) as [R2 K2]. split; auto.
      eapply keeps_trans; [|exact K2]. now apply unchanged_keeps.
  Qed.

  (** ** Documents *)
  Section Docs.
    Context (tn : bool).
    (** The document of a content. *)
    Inductive docs : content -> doc -> Prop :=
    | dc_none : docs HNone DNull
    | dc_nil : docs (HLeaf INil) DNull
    | dc_nilptr i : tn = true -> nil_object i = true -> leaf i -> docs (HLeaf i) DNull
    | dc_scal s : docs (HLeaf (IScal s)) (DScal s)
    | dc_err s : docs (HLeaf (IErr s)) (DErr s)
    | dc_perr e s : e = Plain s \/ (exists n, e = Typed n s) -> docs (HLeaf (IPErr (Some e))) (DErr s)
    | dc_errs l : docs (HLeaf (IErrs (map Plain l))) (DTexts l)
    | dc_strs l : docs (HLeaf (IStrs l)) (DTexts l)
    | dc_perrs l : docs (HLeaf (IPErrs (Some (map Plain l)))) (DTexts l)
    | dc_pstrs l : docs (HLeaf (IPStrs (Some l))) (DTexts l)
    | dc_var s : docs (HVar s) (DScal s)
    | dc_arr l ds : docs_elems l ds -> docs (HArr l) (DArr ds)
    | dc_map l ds : docs_members l ds -> docs (HMap l) (DMap ds)
    with docs_elems : list content -> list doc -> Prop :=
    | de_nil : docs_elems [] []
    | de_cons k d l ds : docs k d -> docs_elems l ds -> docs_elems (k :: l) (d :: ds)
    with docs_members : list (str * content) -> list (str * doc) -> Prop :=
    | dm_nil : docs_members [] []
    | dm_cons x k d l ds : docs k d -> docs_members l ds -> docs_members ((x, k) :: l) ((x, d) :: ds).

    Lemma rep_docs w F :
      (forall i d (_ : rep_obj tn w F i d), exists k, holds_obj w F i k /\ docs k d)
      /\ (forall o d (_ : rep_value tn w F o d), exists k, holds_value w F o k /\ docs k d)
      /\ (forall l ds (_ : rep_elems tn w F l ds), exists ks, holds_elems w F l ks /\ docs_elems ks ds)
      /\ (forall l ds (_ : rep_members tn w F l ds), exists ks, holds_members w F l ks /\ docs_members ks ds).
    Proof.
      apply rep_mutind.
      - exists (HLeaf INil). split; constructor. reflexivity.
      - intros i T N. assert (Lf : leaf i) by (destruct i as [|s|t [p|]|m|[m|]|a|[a|]|x|[x|]|l|l|[l|]|[l|]|e|[e|]|n|b|[b|]|[n|]|n [y|]]; try discriminate; reflexivity).
        exists (HLeaf i). split; constructor; auto.
      - intros s. exists (HLeaf (IScal s)). split; constructor. reflexivity.
      - intros t p s Fp Hp T. exists (HVar s). split; constructor; auto.
      - intros s. exists (HLeaf (IErr s)). split; constructor. reflexivity.
      - intros e s Es. exists (HLeaf (IPErr (Some e))). split; constructor; auto. reflexivity.
      - intros l. exists (HLeaf (IErrs (map Plain l))). split; constructor. reflexivity.
      - intros l. exists (HLeaf (IStrs l)). split; constructor. reflexivity.
      - intros l. exists (HLeaf (IPErrs (Some (map Plain l)))). split; constructor. reflexivity.
      - intros l. exists (HLeaf (IPStrs (Some l))). split; constructor. reflexivity.
      - intros i m d es Hi Fm Hm _ (ks & A & B). exists (HMap ks). split; [eapply ho_map; eauto|now constructor].
      - intros i m d es Hi Fm Hm _ (ks & A & B). exists (HArr ks). split; [eapply ho_arr; eauto|now constructor].
      - exists HNone. split; constructor.
      - intros v i d Fv Hv _ (k & A & B). exists k. split; auto. eapply hv_some; eauto.
      - exists []. split; constructor.
      - intros o d l ds _ (k & A & B) _ (ks & A' & B'). exists (k :: ks). split; constructor; auto.
      - exists []. split; constructor.
      - intros x o d l ds _ (k & A & B) _ (ks & A' & B'). exists ((x, k) :: ks). split; constructor; auto.
    Qed.

    Lemma docs_rep w F :
      (forall i k (_ : holds_obj w F i k), forall d, docs k d -> rep_obj tn w F i d)
      /\ (forall o k (_ : holds_value w F o k), forall d, docs k d -> rep_value tn w F o d)
      /\ (forall l ks (_ : holds_elems w F l ks), forall ds, docs_elems ks ds -> rep_elems tn w F l ds)
      /\ (forall l ks (_ : holds_members w F l ks), forall ds, docs_members ks ds -> rep_members tn w F l ds).
    Proof.
      apply holds_mutind.
      - intros i Lf d D. inversion D; subst; try constructor; auto.
      - intros t p s Fp Hp T d D. inversion D; subst. now apply rep_ptr.
      - intros i m d es Hi Fm Hm _ IH d' D. inversion D; subst. eapply rep_map; eauto.
      - intros i m d es Hi Fm Hm _ IH d' D. inversion D; subst. eapply rep_arr; eauto.
      - intros d D. inversion D. now constructor.
      - intros v i k Fv Hv _ IH d D. eapply rep_some; eauto.
      - intros ds D. inversion D. constructor.
      - intros o k l ks _ IH _ IHl ds D. inversion D; subst. constructor; auto.
      - intros ds D. inversion D. constructor.
      - intros x o k l ks _ IH _ IHl ds D. inversion D; subst. constructor; auto.
    Qed.

    Scheme docs_ind2 := Induction for docs Sort Prop
      with docs_elems_ind2 := Induction for docs_elems Sort Prop
      with docs_members_ind2 := Induction for docs_members Sort Prop.
    Combined Scheme docs_mutind from docs_ind2, docs_elems_ind2, docs_members_ind2.

    Lemma docs_copy : tn = x_typed_nil X ->
      (forall k d, docs k d -> rejects X k = [] -> docs (copy X k) (copy_doc X d))
      /\ (forall l ds, docs_elems l ds -> flat_map (rejects X) l = [] -> docs_elems (map (copy X) l) (map (copy_doc X) ds))
      /\ (forall l ds, docs_members l ds -> flat_map (fun xk => rejects X (snd xk)) l = [] ->
            docs_members (map (fun xk => (fst xk, copy X (snd xk))) l) (map (fun kd => (fst kd, copy_doc X (snd kd))) ds)).
    Proof.
      intros T.
      assert (G : (forall k d (_ : docs k d), rejects X k = [] -> docs (copy X k) (copy_doc X d))
      /\ (forall l ds (_ : docs_elems l ds), flat_map (rejects X) l = [] -> docs_elems (map (copy X) l) (map (copy_doc X) ds))
      /\ (forall l ds (_ : docs_members l ds), flat_map (fun xk => rejects X (snd xk)) l = [] ->
            docs_members (map (fun xk => (fst xk, copy X (snd xk))) l) (map (fun kd => (fst kd, copy_doc X (snd kd))) ds))).
      { apply docs_mutind.
        - constructor.
        - constructor.
        - intros i Tn N Lf Re. cbn [copy copy_doc]. rewrite T in Tn.
          destruct i as [|s|t [p|]|m|[m|]|a|[a|]|x|[x|]|l|l|[l|]|[l|]|e|[e|]|n|b|[b|]|[n|]|n [y|]]; try discriminate; cbn; rewrite ?Tn; constructor.
        - constructor.
        - intros s Re. apply dc_perr. now left.
        - intros e s Es Re. cbn [copy copy_doc fate_of]. destruct Es as [->|[n ->]]; apply dc_perr; now left.
        - intros l Re. cbn in *. destruct (x_is_array X TErrs); [discriminate|].
          assert (Em : error_messages (map Plain l) = Some l) by (clear; induction l as [|s l IH]; cbn; [reflexivity|now rewrite IH]).
          rewrite Em. replace (map (fun s => Plain (x_errorf X s)) l) with (map Plain (map (x_errorf X) l)) by apply map_map. constructor.
        - intros l Re. discriminate.
        - intros l Re. discriminate.
        - intros l Re. discriminate.
        - constructor.
        - intros l ds _ IH Re. cbn in *. constructor. auto.
        - intros l ds _ IH Re. cbn in *. constructor. auto.
        - constructor.
        - intros k d l ds _ IH _ IHl Re. cbn in *. apply app_eq_nil in Re as [R1 R2]. constructor; auto.
        - constructor.
        - intros x k d l ds _ IH _ IHl Re. cbn in *. apply app_eq_nil in Re as [R1 R2]. constructor; auto. }
      exact G.
    Qed.
  End Docs.

  (** A content is determined by the structure. *)
  Lemma holds_fun w F :
    (forall i k (_ : holds_obj w F i k), forall F' k', holds_obj w F' i k' -> k = k')
    /\ (forall o k (_ : holds_value w F o k), forall F' k', holds_value w F' o k' -> k = k')
    /\ (forall l ks (_ : holds_elems w F l ks), forall F' ks', holds_elems w F' l ks' -> ks = ks')
    /\ (forall l ks (_ : holds_members w F l ks), forall F' ks', holds_members w F' l ks' -> ks = ks').
  Proof.
    apply holds_mutind.
    - intros i Lf F' k' H. inversion H; subst; auto; unfold leaf in Lf; try discriminate;
        match goal with Hi : _ = _ \/ _ = _ |- _ => destruct Hi as [-> | ->]; discriminate end.
    - intros t p s Fp Hp T F' k' H. inversion H; subst; try discriminate; try congruence;
        match goal with Hi : _ = _ \/ _ = _ |- _ => destruct Hi; discriminate end.
    - intros i m d es Hi Fm Hm He IH F' k' H. inversion H as [j Lf|t p s Fp Hp T|j m1 d1 es1 Hi1 Fm1 Hm1 He1|j a1 l1 ks1 Hi1 Fa1 Ha1 He1]; subst.
      + unfold leaf in *. destruct Hi as [-> | ->]; discriminate.
      + destruct Hi; discriminate.
      + assert (m1 = m) as -> by (destruct Hi as [-> | ->], Hi1; congruence). f_equal.
        assert (d1 = d) as -> by congruence. eapply IH; eauto.
      + exfalso. destruct Hi as [-> | ->], Hi1; discriminate.
    - intros i m d es Hi Fm Hm He IH F' k' H. inversion H as [j Lf|t p s Fp Hp T|j m1 d1 es1 Hi1 Fm1 Hm1 He1|j a1 l1 ks1 Hi1 Fa1 Ha1 He1]; subst.
      + unfold leaf in *. destruct Hi as [-> | ->]; discriminate.
      + destruct Hi; discriminate.
      + exfalso. destruct Hi as [-> | ->], Hi1; discriminate.
      + assert (a1 = m) as -> by (destruct Hi as [-> | ->], Hi1; congruence). f_equal.
        assert (l1 = d) as -> by congruence. eapply IH; eauto.
    - intros F' k' H. inversion H. auto.
    - intros v i k Fv Hv _ IH F' k' H. inversion H as [|? i' ? Fv' Hv' Ho]; subst. assert (i' = i) as -> by congruence. eauto.
    - intros F' ks' H. inversion H. auto.
    - intros o k l ks _ IH _ IHl F' ks' H. inversion H; subst. f_equal; eauto.
    - intros F' ks' H. inversion H. auto.
    - intros x o k l ks _ IH _ IHl F' ks' H. inversion H; subst. f_equal; [f_equal; eauto|eauto].
  Qed.
End Top.

Section Props.
  Context (X : ext).

  (** ** C34 *)
  Lemma value_anywhere h (F : nat -> Prop) v k : reachable X h -> holds_value (view h) F (Some v) k ->
    holds_value (view h) (old_in h) (Some v) k.
  Proof.
    intros R H. inversion H as [|? i ? Fv Hv Ho]; subst. pose proof (holds_anywhere X h F i k R Ho) as Ho'.
    apply hv_some with (i := i); auto. destruct (live_bounded _ _ _ (live_view _ _ R)) as (Bv & _). exact (Bv _ _ Hv).
  Qed.

  Fixpoint content_rect' (P : content -> Prop) (f1 : P HNone) (f2 : forall i, P (HLeaf i)) (f3 : forall s, P (HVar s))
    (f4 : forall l, Forall P l -> P (HArr l)) (f5 : forall l, Forall (fun xk => P (snd xk)) l -> P (HMap l)) (k : content) : P k :=
    match k with
    | HNone => f1 | HLeaf i => f2 i | HVar s => f3 s
    | HArr l => f4 l ((fix go l := match l return Forall P l with [] => Forall_nil _ | x :: t => Forall_cons _ (content_rect' P f1 f2 f3 f4 f5 x) (go t) end) l)
    | HMap l => f5 l ((fix go l := match l return Forall (fun xk => P (snd xk)) l with [] => Forall_nil _ | x :: t => Forall_cons _ (content_rect' P f1 f2 f3 f4 f5 (snd x)) (go t) end) l)
    end.

  Lemma plain_copy k : plain k -> copy X k = k /\ crashes X k = false /\ rejects X k = [] /\ is_none k = false.
  Proof.
    induction k as [|i|s|l IH|l IH] using content_rect'; intros P; inversion P as [|? | | |? Q|? Q]; subst; auto.
    - assert (G : map (copy X) l = l /\ existsb (fun x => is_none x || crashes X x) l = false /\ flat_map (rejects X) l = []).
      { clear P. induction Q as [|k l Pk Q IHl]; cbn; auto. inversion IH as [|? ? A B]; subst.
        destruct (A Pk) as (A1 & A2 & A3 & A4), (IHl B) as (B1 & B2 & B3). now rewrite A1, A2, A3, A4, B1, B2, B3. }
      destruct G as (G1 & G2 & G3). cbn. now rewrite G1, G2, G3.
    - assert (G : map (fun xk => (fst xk, copy X (snd xk))) l = l /\ existsb (fun xk => crashes X (snd xk)) l = false
                  /\ flat_map (fun xk => rejects X (snd xk)) l = []).
      { clear P. induction Q as [|[x k] l Pk Q IHl]; cbn; auto. inversion IH as [|? ? A B]; subst.
        destruct (A Pk) as (A1 & A2 & A3 & A4), (IHl B) as (B1 & B2 & B3). cbn in *. now rewrite A1, A2, A3, B1, B2, B3. }
      destruct G as (G1 & G2 & G3). cbn. now rewrite G1, G2, G3.
  Qed.


  Lemma clone_document n h F m d c h' : reachable X h -> rep_obj (x_typed_nil X) (view h) F (IMap m) d ->
    clone n X KMap m h = Ok (GVal c, h') ->
    reachable X h' /\ unchanged h h' /\ rep_obj (x_typed_nil X) (view h') (made_in h h') (IMap c) (copy_doc X d).
  Proof.
    intros R H E. destruct (proj1 (rep_docs (x_typed_nil X) (view h) F) _ _ H) as (k & K & D).
    assert (Ex : exists_in h KMap m).
    { inversion K as [j Lf|t p s Fp Hp T|j m0 d0 es Hi Fm Hm He|j a l0 ks Hi Fa Ha He]; subst; try discriminate.
      - destruct Hi as [E1|E1]; inversion E1; subst. exists d0. exact Hm.
      - destruct Hi; discriminate. }
    destruct (returned X n KMap m h _ h' R Ex E) as (R' & U & k' & K' & C & Re & G & _).
    assert (k' = k) as -> by exact (proj1 (holds_fun (view h) (old_in h)) _ _ K' F k K).
    split; auto. split; auto. apply (proj1 (docs_rep (x_typed_nil X) (view h') (made_in h h')) _ _ G).
    now apply (proj1 (docs_copy X (x_typed_nil X) eq_refl)).
  Qed.

  Lemma clone_text n h F m d c h' b b' : reachable X h -> escape_ok X -> rep_obj (x_typed_nil X) (view h) F (IMap m) d ->
    proper (x_is64 X) d -> copy_doc X d = d -> clone n X KMap m h = Ok (GVal c, h') ->
    exists n' s, (forall fuel, n' <= fuel -> map_ToJSONString fuel X h m (Some b) = Ok (Some (b ++ s), []))
      /\ (forall fuel, n' <= fuel -> map_ToJSONString fuel X h' c (Some b') = Ok (Some (b' ++ s), [])).
  Proof.
    intros R Es H P C E. destruct (clone_document n h F m d c h' R H E) as (R' & U & H'). rewrite C in H'.
    destruct (map_text X h F m d b R Es H P) as (n1 & s1 & S1 & T1).
    destruct (map_text X h' _ c d b' R' Es H' P) as (n2 & s2 & S2 & T2).
    assert (s2 = s1) as -> by exact (shows_fun _ _ _ S2 S1).
    exists (max n1 n2), s1. split; intros f L; [apply T1|apply T2]; lia.
  Qed.

  (** ** C35 *)
  Lemma found_in h F : reachable X h -> forall i k c, holds_obj (view h) F i k -> refers i = Some c ->
    (forall p l, object_at (view h) c p l -> F l) /\ (forall p v, value_at (view h) c p v -> F v).
  Proof.
    intros R i k c H Rf. pose proof (view_impl _ (reachable_Inv _ _ R)) as Im.
    assert (XM : forall l d d', w_map (view h) l = Some d -> w_arr (view h) l = Some d' -> False).
    { intros l d d' M A. apply (im_map _ _ Im) in M as (mo & M & _). apply (im_arr _ _ Im) in A as (A & _). congruence. }
    assert (XV : forall l d d', w_map (view h) l = Some d -> w_var (view h) l = Some d' -> False).
    { intros l d d' M A. apply (im_map _ _ Im) in M as (mo & M & _). apply (im_var _ _ Im) in A. congruence. }
    assert (XA : forall l d d', w_arr (view h) l = Some d -> w_var (view h) l = Some d' -> False).
    { intros l d d' M A. apply (im_arr _ _ Im) in M as (M & _). apply (im_var _ _ Im) in A. congruence. }
    assert (FI : forall i k c, holds_obj (view h) F i k -> refers i = Some c -> F c).
    { intros i0 k0 c0 H0 R0. inversion H0 as [? Lf|? ? ? Fp Hp T|? ? ? ? Hi Fm Hm He|? ? ? ? Hi Fa Ha He]; subst.
      - unfold leaf in Lf. congruence.
      - now injection R0 as <-.
      - destruct Hi as [-> | ->]; now injection R0 as <-.
      - destruct Hi as [-> | ->]; now injection R0 as <-. }
    assert (Sl : forall i k c x v, holds_obj (view h) F i k -> refers i = Some c -> slot (view h) c x v ->
              exists k', holds_value (view h) F (Some v) k').
    { intros i0 k0 c0 x v H0 R0 S0. inversion H0 as [? Lf|? ? ? Fp Hp T|? ? ? ? Hi Fm Hm He|? ? ? ? Hi Fa Ha He]; subst.
      - unfold leaf in Lf. congruence.
      - injection R0 as <-. destruct x; destruct S0 as (? & S0 & _); exfalso; eauto.
      - assert (m = c0) as -> by (destruct Hi as [-> | ->]; now injection R0).
        destruct x as [kk|n]; destruct S0 as (d' & D & G); [|exfalso; eauto].
        rewrite Hm in D. injection D as <-. clear -He G. revert G.
        induction He as [|y o k0 l ks V _ IH]; cbn; [discriminate|]. destruct (str_eqb y kk); auto. intros [= ->]. eauto.
      - assert (a = c0) as -> by (destruct Hi as [-> | ->]; now injection R0).
        destruct x as [kk|n]; destruct S0 as (d' & D & G); [exfalso; eauto|].
        rewrite Ha in D. injection D as <-. clear -He G. revert n G.
        induction He as [|o k0 l ks V _ IH]; intros [|n] G; cbn in G; try discriminate; eauto. injection G as ->. eauto. }
    assert (G : (forall p l, object_at (view h) c p l -> exists i k, refers i = Some l /\ holds_obj (view h) F i k)
             /\ (forall p v, value_at (view h) c p v -> exists k, holds_value (view h) F (Some v) k)).
    { apply at_combined.
      - eauto.
      - intros p v i0 l _ (k0 & V) Hv R0. inversion V as [|? i' ? Fv Hv' Ho]; subst.
        assert (i' = i0) as -> by congruence. eauto.
      - intros p x c' v _ (i0 & k0 & R0 & H0) S0. eauto. }
    destruct G as [G1 G2]. split.
    - intros p l O. destruct (G1 _ _ O) as (i0 & k0 & R0 & H0). eauto.
    - intros p v O. destruct (G2 _ _ O) as (k0 & V). inversion V. auto.
  Qed.

  Lemma clone_apart n kd m h c h' : reachable X h -> kd <> KVal -> exists_in h kd m -> clone n X kd m h = Ok (GVal c, h') ->
    (forall p l, object_at (view h) m p l -> old_in h l) /\ (forall p v, value_at (view h) m p v -> old_in h v)
    /\ (forall p l, object_at (view h') c p l -> made_in h h' l) /\ (forall p v, value_at (view h') c p v -> made_in h h' v).
  Proof.
    intros R K Ex E. destruct (returned X _ _ _ _ _ _ R Ex E) as (R' & U & k & C & _ & _ & G).
    destruct kd; [congruence| |].
    - destruct G as [G _]. destruct (found_in h _ R _ _ m C eq_refl) as [A1 A2].
      destruct (found_in h' _ R' _ _ c G eq_refl) as [B1 B2]. auto.
    - destruct G as [G _]. destruct (found_in h _ R _ _ m C eq_refl) as [A1 A2].
      destruct (found_in h' _ R' _ _ c G eq_refl) as [B1 B2]. auto.
  Qed.

  Lemma clone_kept h1 h2 F i k : reachable X h1 -> history X F h1 h2 -> holds_obj (view h1) F i k -> holds_obj (view h2) F i k.
  Proof. intros R Hi H. destruct (history_keeps X F h1 h2 Hi R) as [_ K]. exact (proj1 (holds_frame_all _ _ _ _ K) _ _ H). Qed.


  (** ** The three kinds at once *)
  Lemma content_old h F kd l k : reachable X h -> content_at h F kd l k -> has_content h kd l k.
  Proof.
    intros R H. destruct kd; cbn in *; [eapply value_anywhere|eapply holds_anywhere|eapply holds_anywhere]; eauto.
  Qed.
  Lemma content_exists h F kd l k : content_at h F kd l k -> exists_in h kd l.
  Proof.
    destruct kd; cbn; intros H.
    - inversion H. eexists; eassumption.
    - inversion H as [j Lf|t p s Fp Hp T|j m0 d0 es Hi Fm Hm He|j a l0 ks Hi Fa Ha He]; subst; try discriminate;
        destruct Hi as [E1|E1]; inversion E1; subst; eexists; eassumption.
    - inversion H as [j Lf|t p s Fp Hp T|j m0 d0 es Hi Fm Hm He|j a l0 ks Hi Fa Ha He]; subst; try discriminate;
        destruct Hi as [E1|E1]; inversion E1; subst; eexists; eassumption.
  Qed.
  Lemma content_fun h F F' kd l k k' : content_at h F kd l k -> content_at h F' kd l k' -> k = k'.
  Proof.
    destruct kd; cbn; intros H H'.
    - exact (proj1 (proj2 (holds_fun _ _)) _ _ H _ _ H').
    - exact (proj1 (holds_fun _ _) _ _ H _ _ H').
    - exact (proj1 (holds_fun _ _) _ _ H _ _ H').
  Qed.
  Lemma content_frame h h' F F' kd l k : keeps_on (view h) (view h') F F' -> content_at h F kd l k -> content_at h' F' kd l k.
  Proof.
    intros K. destruct (holds_frame_all _ _ _ _ K) as (A & B & _). destruct kd; cbn; auto.
  Qed.
  Lemma good_content h kd k h' c : good_clone X h kd k h' c -> content_at h' (made_in h h') kd c (copy X k) /\ tree_at h' kd c.
  Proof. destruct kd; cbn; intros [A B]; auto. Qed.

  Lemma clone_good h F kd l k : reachable X h -> content_at h F kd l k -> crashes X k = false -> rejects X k = [] ->
    exists n c h', (forall fuel, n <= fuel -> clone fuel X kd l h = Ok (GVal c, h'))
      /\ reachable X h' /\ unchanged h h' /\ content_at h' (made_in h h') kd c (copy X k) /\ tree_at h' kd c.
  Proof.
    intros R H C Re. apply content_old in H; auto.
    destruct (settled X h kd l k R H) as (n & r & S & Q). unfold result in Q. rewrite C, Re in Q.
    destruct Q as (h' & R' & U & c & -> & G). apply good_content in G as [G1 G2]. exists n, c, h'. auto.
  Qed.
  Lemma clone_plain h F kd l k : reachable X h -> content_at h F kd l k -> plain k ->
    exists n c h', (forall fuel, n <= fuel -> clone fuel X kd l h = Ok (GVal c, h'))
      /\ reachable X h' /\ unchanged h h' /\ content_at h' (made_in h h') kd c k /\ tree_at h' kd c.
  Proof.
    intros R H P. destruct (plain_copy k P) as (E & C & Re & _).
    destruct (clone_good h F kd l k R H C Re) as (n & c & h' & S & R' & U & G & N). rewrite E in G. exists n, c, h'. auto.
  Qed.
  Lemma clone_errs h F kd l k : reachable X h -> content_at h F kd l k -> crashes X k = false -> rejects X k <> [] ->
    exists n h', (forall fuel, n <= fuel -> clone fuel X kd l h = Ok (GErr (rejects X k), h')) /\ reachable X h' /\ unchanged h h'.
  Proof.
    intros R H C Re. apply content_old in H; auto.
    destruct (settled X h kd l k R H) as (n & r & S & Q). unfold result in Q. rewrite C in Q.
    destruct Q as (h' & R' & U & Q). destruct (rejects X k) eqn:E; [congruence|]. subst r. exists n, h'. auto.
  Qed.
  Lemma clone_panics h F kd l k : reachable X h -> content_at h F kd l k -> crashes X k = true ->
    exists n, forall fuel, n <= fuel -> clone fuel X kd l h = Panic.
  Proof.
    intros R H C. apply content_old in H; auto.
    destruct (settled X h kd l k R H) as (n & r & S & Q). unfold result in Q. rewrite C in Q. subst r. eauto.
  Qed.
  Lemma clone_ends h kd l : reachable X h -> exists_in h kd l -> acyclic_at h kd l ->
    exists n k, content_at h (fun _ => True) kd l k /\ forall fuel, n <= fuel ->
      (exists r, clone fuel X kd l h = Ok r) \/ clone fuel X kd l h = Panic.
  Proof.
    intros R Ex A. destruct (acyclic_has_content X h kd l R Ex A) as (k & K).
    destruct (settled X h kd l k R K) as (n & r & S & Q). exists n, k. split.
    - apply (content_frame h h (old_in h)); auto. apply keeps_on_mono. auto.
    - intros f L. rewrite (S f L). unfold result in Q. destruct (crashes X k); auto. left. destruct Q as (h' & _ & _ & Q).
      destruct (rejects X k); [destruct Q as (c & -> & _)|subst r]; eauto.
  Qed.
  Lemma clone_loops n h kd l r : reachable X h -> exists_in h kd l -> cyclic_at h kd l -> clone n X kd l h <> Ok r.
  Proof.
    intros R Ex C E. destruct (returned_content X _ _ _ _ _ R Ex E) as (k & K). destruct kd; unfold cyclic_at, has_content in C, K; cbv beta iota zeta in C, K.
    - destruct C as (i & c & Hi & Rc & C). inversion K as [|? i' ? Fv Hv Ho]; subst.
      assert (i' = i) as -> by congruence. destruct (cyclic_no_content X h c k R C) as [Q1 Q2].
      inversion Ho as [j Lf|t p s Fp Hp T|j m0 d0 es Hj Fm Hm He|j a l0 ks Hj Fa Ha He]; subst.
      + unfold leaf in Lf. congruence.
      + injection Rc as <-. destruct C as (p1 & x & q & O1 & O2 & Ne).
        assert (NS : forall y v, ~ slot (view h) p y v).
        { pose proof (view_impl _ (reachable_Inv _ _ R)) as Im. apply no_slots.
          - destruct (w_map (view h) p) eqn:Em; auto. apply (im_map _ _ Im) in Em as (mo & Em & _). apply (im_var _ _ Im) in Hp. congruence.
          - destruct (w_arr (view h) p) eqn:Em; auto. apply (im_arr _ _ Im) in Em as (Em & _). apply (im_var _ _ Im) in Hp. congruence. }
        apply at_split in O1 as [[-> ->]|(y & p' & v & j & c' & _ & S & _)]; [|now apply NS in S].
        apply at_split in O2 as [[-> _]|(y & p' & v & j & c' & _ & S & _)]; [congruence|now apply NS in S].
      + apply Q1. destruct Hj as [-> | ->]; injection Rc as ->; eapply ho_map; eauto.
      + apply Q2. destruct Hj as [-> | ->]; injection Rc as ->; eapply ho_arr; eauto.
    - destruct (cyclic_no_content X h l k R C) as [Q _]. auto.
    - destruct (cyclic_no_content X h l k R C) as [_ Q]. auto.
  Qed.
  Lemma clone_returned n h kd l r h' : reachable X h -> exists_in h kd l -> clone n X kd l h = Ok (r, h') ->
    reachable X h' /\ unchanged h h' /\ exists k, content_at h (fun _ => True) kd l k /\ crashes X k = false
      /\ match r with
         | GVal c => rejects X k = [] /\ content_at h' (made_in h h') kd c (copy X k) /\ tree_at h' kd c
         | GErr e => e = rejects X k /\ e <> []
         end.
  Proof.
    intros R Ex E. destruct (returned X _ _ _ _ _ _ R Ex E) as (R' & U & k & K & C & Q). split; auto. split; auto. exists k.
    split; [|split; auto].
    - apply (content_frame h h (old_in h)); auto. apply keeps_on_mono. auto.
    - destruct r; auto. destruct Q as [Re G]. apply good_content in G. auto.
  Qed.
  Lemma clone_indep n kd m h k c h1 h2 : reachable X h -> content_at h (fun _ => True) kd m k -> clone n X kd m h = Ok (GVal c, h1) ->
    (history X (made_in h h1) h1 h2 -> content_at h2 (made_in h h1) kd c (copy X k))
    /\ (history X (old_in h) h1 h2 -> content_at h2 (old_in h) kd m k).
  Proof.
    intros R H E. apply content_old in H as C; auto. apply content_exists in H as Ex.
    destruct (returned X n kd m h _ h1 R Ex E) as (R' & U & k' & C' & _ & _ & G).
    assert (k' = k) as -> by (eapply content_fun; eauto). apply good_content in G as [G _].
    split; intros Hi; destruct (history_keeps X _ _ _ Hi R') as [_ K]; eapply content_frame; eauto.
    apply (content_frame h h1 (old_in h)); auto. now apply (unchanged_keeps X).
  Qed.
  (** The same for documents, hence for the text. *)
  Lemma clone_indep_text n m h d c h1 h2 b : reachable X h -> escape_ok X -> rep_obj (x_typed_nil X) (view h) (fun _ => True) (IMap m) d ->
    proper (x_is64 X) d -> copy_doc X d = d -> clone n X KMap m h = Ok (GVal c, h1) ->
    exists s, shows d s
    /\ (history X (made_in h h1) h1 h2 ->
        exists n', forall fuel, n' <= fuel -> map_ToJSONString fuel X h2 c (Some b) = Ok (Some (b ++ s), []))
    /\ (history X (old_in h) h1 h2 ->
        exists n', forall fuel, n' <= fuel -> map_ToJSONString fuel X h2 m (Some b) = Ok (Some (b ++ s), [])).
  Proof.
    intros R Es H P Cd E. destruct (map_text X h _ m d [] R Es H P) as (n0 & s & S & _). exists s. split; auto.
    destruct (clone_document n h _ m d c h1 R H E) as (R1 & U & H1). rewrite Cd in H1.
    destruct (proj1 (rep_docs (x_typed_nil X) (view h) _) _ _ H) as (k & K & D).
    pose proof (holds_anywhere X h _ _ _ R K) as K'.
    pose proof (proj1 (docs_rep (x_typed_nil X) (view h) _) _ _ K' _ D) as H0.
    split; intros Hi; destruct (history_keeps X _ _ _ Hi R1) as [R2 Kp].
    - pose proof (rep_obj_frame _ _ _ _ _ _ _ Kp H1) as H2.
      destruct (map_text X h2 _ c d b R2 Es H2 P) as (n2 & s2 & S2 & T2). assert (s2 = s) as -> by exact (shows_fun _ _ _ S2 S). eauto.
    - pose proof (rep_obj_frame _ _ _ _ _ _ _ (unchanged_keeps X h h1 (old_in h) R U) H0) as H1'.
      pose proof (rep_obj_frame _ _ _ _ _ _ _ Kp H1') as H2.
      destruct (map_text X h2 _ m d b R2 Es H2 P) as (n2 & s2 & S2 & T2). assert (s2 = s) as -> by exact (shows_fun _ _ _ S2 S). eauto.
  Qed.
  Lemma content_acyclic h F kd l k : reachable X h -> content_at h F kd l k -> acyclic_at h kd l.
  Proof.
    intros R H.
    assert (G : forall i c k', refers i = Some c -> holds_obj (view h) F i k' -> acyclic (view h) c).
    { intros i c k' Rc K p x q O1 O2. destruct q as [|y q]; auto. exfalso.
      assert (Cy : exists p x q, object_at (view h) c p x /\ object_at (view h) x q x /\ q <> []) by (exists p, x, (y :: q); repeat split; auto; discriminate).
      destruct (cyclic_no_content X h c k' R Cy) as [Q1 Q2]. pose proof (holds_anywhere X h F _ _ R K) as K'.
      inversion K' as [j Lf|t p0 s Fp Hp T|j m0 d0 es Hj Fm Hm He|j a l0 ks Hj Fa Ha He]; subst.
      - unfold leaf in Lf. congruence.
      - injection Rc as <-. pose proof (view_impl _ (reachable_Inv _ _ R)) as Im.
        assert (NS : forall y v, ~ slot (view h) p0 y v).
        { apply no_slots.
          - destruct (w_map (view h) p0) eqn:Em; auto. apply (im_map _ _ Im) in Em as (mo & Em & _). apply (im_var _ _ Im) in Hp. congruence.
          - destruct (w_arr (view h) p0) eqn:Em; auto. apply (im_arr _ _ Im) in Em as (Em & _). apply (im_var _ _ Im) in Hp. congruence. }
        apply at_split in O1 as [[-> ->]|(z & p' & v & j & c' & _ & S & _)]; [|now apply NS in S].
        apply at_split in O2 as [[? _]|(z & p' & v & j & c' & _ & S & _)]; [discriminate|now apply NS in S].
      - apply Q1. destruct Hj as [-> | ->]; injection Rc as ->; eapply ho_map; eauto.
      - apply Q2. destruct Hj as [-> | ->]; injection Rc as ->; eapply ho_arr; eauto. }
    destruct kd; unfold acyclic_at; unfold content_at in H.
    - intros i c Hi Rc. inversion H as [|? i' ? Fv Hv Ho]; subst. assert (i' = i) as -> by congruence. eauto.
    - eapply G; eauto. reflexivity.
    - eapply G; eauto. reflexivity.
  Qed.
End Props.
