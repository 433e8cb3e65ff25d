(** * Clone copies the content of a structure *)
From Coq Require Import Ascii String List NArith ZArith Bool Lia.
From Verif Require Import GoStr StrLemmas GoNum GoFloat Heap Common ValueModel ArrayModel MapModel JsonModel
  SpecDict DictLemmas SpecWorld Inv World Reach MapFacts ObjFacts SpecDoc RepFacts ParseWorld RenderFacts CycleFacts SpecClone.
Import ListNotations.

Scheme holds_obj_ind2 := Induction for holds_obj Sort Prop
  with holds_value_ind2 := Induction for holds_value Sort Prop
  with holds_elems_ind2 := Induction for holds_elems Sort Prop
  with holds_members_ind2 := Induction for holds_members Sort Prop.
Combined Scheme holds_mutind from holds_obj_ind2, holds_value_ind2, holds_elems_ind2, holds_members_ind2.

(** ** Frames *)
Lemma holds_frame_all w w' F F' : keeps_on w w' F F' ->
  (forall i k, holds_obj w F i k -> holds_obj w' F' i k)
  /\ (forall o k, holds_value w F o k -> holds_value w' F' o k)
  /\ (forall l ks, holds_elems w F l ks -> holds_elems w' F' l ks)
  /\ (forall l ks, holds_members w F l ks -> holds_members w' F' l ks).
Proof.
  intros (KF & Km & Ka & Kv & Kr).
  assert (G : (forall i d (_ : holds_obj w F i d), holds_obj w' F' i d)
    /\ (forall o d (_ : holds_value w F o d), holds_value w' F' o d)
    /\ (forall l ds (_ : holds_elems w F l ds), holds_elems w' F' l ds)
    /\ (forall l ds (_ : holds_members w F l ds), holds_members w' F' l ds)).
  { apply holds_mutind; intros; try (constructor; auto; fail).
    - apply ho_var; auto. destruct (KF _ f) as [|(_ & _ & _ & N)]; auto. congruence.
    - eapply ho_map; eauto. destruct (KF _ f) as [|(N & _)]; auto. congruence.
    - eapply ho_arr; eauto. destruct (KF _ f) as [|(_ & N & _)]; auto. congruence.
    - eapply hv_some; eauto. destruct (KF _ f) as [|(_ & _ & N & _)]; auto. congruence. }
  intuition auto.
Qed.

(** The world only grows. *)
Record grows (w w' : world) : Prop := {
  gr_next : w_next w <= w_next w';
  gr_same : same_below (w_next w) w w' }.
Lemma grows_refl w : grows w w.
Proof. split; [lia|apply same_refl]. Qed.
Lemma same_le b b' w w' : b <= b' -> same_below b' w w' -> same_below b w w'.
Proof. intros L []. split; intros; auto with zarith. all: match goal with H : forall l, _ -> ?f l = _ |- ?f _ = _ => apply H; lia end. Qed.
Lemma grows_trans w1 w2 w3 : grows w1 w2 -> grows w2 w3 -> grows w1 w3.
Proof.
  intros [A B] [C D]. split; [lia|]. eapply same_trans; eauto. eapply same_le; eauto.
Qed.
Lemma evo_grows w w' C : evo (from (w_next w)) C w w' -> grows w w'.
Proof. intros [O S]. split; [apply (on_next _ _ _ O)|now apply off_below]. Qed.

Definition anywhere : nat -> Prop := fun _ => True.
Lemma same_keeps w w' : bounded w -> same_below (w_next w) w w' -> keeps_on w w' anywhere anywhere.
Proof.
  intros (Bv & Br & Bm & Ba) [Sm Sa Sv Sr]. split; [auto|].
  repeat split; intros l d _ H; [rewrite Sm|rewrite Sa|rewrite Sv|rewrite Sr]; eauto.
Qed.

(** ** Contents built in an interval of identities *)
Section Made.
  Context (w : world).
  Inductive made_obj : nat -> nat -> iface -> content -> Prop :=
  | md_leaf lo hi i : leaf i -> made_obj lo hi i (HLeaf i)
  | md_var lo hi p s : lo <= p < hi -> w_var w p = Some s -> made_obj lo hi (IPtr (stype_of s) (Some p)) (HVar s)
  | md_map lo hi m d es :
      lo <= m < hi -> w_map w m = Some d -> made_members (S m) hi d es -> made_obj lo hi (IPMap (Some m)) (HMap es)
  | md_arr lo hi a l ks :
      lo <= a < hi -> w_arr w a = Some l -> made_elems (S a) hi l ks -> made_obj lo hi (IPArr (Some a)) (HArr ks)
  with made_value : nat -> nat -> option nat -> content -> Prop :=
  | mv_some lo hi a b v i k :
      lo <= v < hi -> w_val w v = Some i -> made_obj a b i k -> lo <= a -> b <= hi -> ~ a <= v < b ->
      made_value lo hi (Some v) k
  with made_elems : nat -> nat -> list (option nat) -> list content -> Prop :=
  | me_nil lo hi : made_elems lo hi [] []
  | me_cons lo mid hi o k l ks :
      made_value lo mid o k -> lo <= mid <= hi -> made_elems mid hi l ks -> made_elems lo hi (o :: l) (k :: ks)
  with made_members : nat -> nat -> dict (option nat) -> list (str * content) -> Prop :=
  | mm_nil lo hi : made_members lo hi [] []
  | mm_cons lo mid hi x o k l ks :
      made_value lo mid o k -> lo <= mid <= hi -> made_members mid hi l ks ->
      made_members lo hi ((x, o) :: l) ((x, k) :: ks).
End Made.
Scheme made_obj_ind2 := Induction for made_obj Sort Prop
  with made_value_ind2 := Induction for made_value Sort Prop
  with made_elems_ind2 := Induction for made_elems Sort Prop
  with made_members_ind2 := Induction for made_members Sort Prop.
Combined Scheme made_mutind from made_obj_ind2, made_value_ind2, made_elems_ind2, made_members_ind2.

(** A larger interval, and a world that agrees on it. *)
Lemma made_frame w w' :
  (forall lo hi i k, made_obj w lo hi i k -> forall lo' hi', lo' <= lo -> hi <= hi' ->
     (forall l, lo <= l < hi -> w_map w' l = w_map w l /\ w_arr w' l = w_arr w l /\ w_val w' l = w_val w l /\ w_var w' l = w_var w l) ->
     made_obj w' lo' hi' i k)
  /\ (forall lo hi o k, made_value w lo hi o k -> forall lo' hi', lo' <= lo -> hi <= hi' ->
     (forall l, lo <= l < hi -> w_map w' l = w_map w l /\ w_arr w' l = w_arr w l /\ w_val w' l = w_val w l /\ w_var w' l = w_var w l) ->
     made_value w' lo' hi' o k)
  /\ (forall lo hi l ks, made_elems w lo hi l ks -> forall lo' hi', lo' <= lo -> hi <= hi' ->
     (forall l, lo <= l < hi -> w_map w' l = w_map w l /\ w_arr w' l = w_arr w l /\ w_val w' l = w_val w l /\ w_var w' l = w_var w l) ->
     made_elems w' lo' hi' l ks)
  /\ (forall lo hi l ks, made_members w lo hi l ks -> forall lo' hi', lo' <= lo -> hi <= hi' ->
     (forall l, lo <= l < hi -> w_map w' l = w_map w l /\ w_arr w' l = w_arr w l /\ w_val w' l = w_val w l /\ w_var w' l = w_var w l) ->
     made_members w' lo' hi' l ks).
Proof.
  apply made_mutind; intros.
  - now apply md_leaf.
  - apply md_var; [lia|]. destruct (H1 p a) as (_ & _ & _ & E). congruence.
  - apply md_map with (d := d); [lia| |].
    + destruct (H2 m a) as (E & _). congruence.
    + apply H; [lia|lia|]. intros l2 Hl. apply H2. lia.
  - rename l into l0. apply md_arr with (l := l0); [lia| |].
    + destruct (H2 a ltac:(lia)) as (_ & E & _). congruence.
    + apply H; [lia|lia|]. intros l2 Hl. apply H2. lia.
  - apply mv_some with (a := a) (b := b) (i := i); try lia.
    + destruct (H2 v ltac:(lia)) as (_ & _ & E & _). congruence.
    + apply H; [lia|lia|]. intros l2 Hl. apply H2. lia.
  - constructor.
  - apply me_cons with (mid := mid); try lia.
    + apply H; [lia|lia|]. intros l2 Hl. apply H3. lia.
    + apply H0; [lia|lia|]. intros l2 Hl. apply H3. lia.
  - constructor.
  - apply mm_cons with (mid := mid); try lia.
    + apply H; [lia|lia|]. intros l2 Hl. apply H3. lia.
    + apply H0; [lia|lia|]. intros l2 Hl. apply H3. lia.
Qed.

(** Contents made in an interval are held there. *)
Lemma made_holds w :
  (forall lo hi i k, made_obj w lo hi i k -> forall F : nat -> Prop, (forall l, lo <= l < hi -> F l) -> holds_obj w F i k)
  /\ (forall lo hi o k, made_value w lo hi o k -> forall F : nat -> Prop, (forall l, lo <= l < hi -> F l) -> holds_value w F o k)
  /\ (forall lo hi l ks, made_elems w lo hi l ks -> forall F : nat -> Prop, (forall l, lo <= l < hi -> F l) -> holds_elems w F l ks)
  /\ (forall lo hi l ks, made_members w lo hi l ks -> forall F : nat -> Prop, (forall l, lo <= l < hi -> F l) -> holds_members w F l ks).
Proof.
  apply made_mutind; intros.
  - now apply ho_leaf.
  - apply ho_var; auto.
  - eapply ho_map; eauto. apply H. intros l2 Hl. apply H0. lia.
  - eapply ho_arr; eauto. apply H. intros l2 Hl. apply H0. lia.
  - eapply hv_some; eauto. apply H. intros l2 Hl. apply H0. lia.
  - constructor.
  - constructor; [apply H|apply H0]; intros l2 Hl; apply H1; lia.
  - constructor.
  - constructor; [apply H|apply H0]; intros l2 Hl; apply H1; lia.
Qed.

Lemma made_elems_snoc w lo mid hi l ks o k :
  made_elems w lo mid l ks -> lo <= mid <= hi -> made_value w mid hi o k ->
  made_elems w lo hi (l ++ [o]) (ks ++ [k]).
Proof.
  intros H. revert hi. induction H as [lo' hi0|lo' m2 hi0 o' k' l ks V L H IH]; intros hi B V'; cbn.
  - apply me_cons with (mid := hi); [|lia|constructor].
    destruct V'. eapply mv_some; eauto; lia.
  - apply me_cons with (mid := m2); auto; [lia|]. apply IH; auto. lia.
Qed.
Lemma made_members_snoc w lo mid hi l ks x o k :
  made_members w lo mid l ks -> lo <= mid <= hi -> made_value w mid hi o k ->
  made_members w lo hi (l ++ [(x, o)]) (ks ++ [(x, k)]).
Proof.
  intros H. revert hi. induction H as [lo' hi0|lo' m2 hi0 x' o' k' l ks V L H IH]; intros hi B V'; cbn.
  - apply mm_cons with (mid := hi); [|lia|constructor].
    destruct V'. eapply mv_some; eauto; lia.
  - apply mm_cons with (mid := m2); auto; [lia|]. apply IH; auto. lia.
Qed.
Lemma made_members_keys w lo hi l ks : made_members w lo hi l ks -> map fst l = map fst ks.
Proof. induction 1; cbn; congruence. Qed.

(** ** The calls Clone makes *)
Lemma run_new_var X h w s : live X h w ->
  exists h', alloc (CPtr s) h = Ok (w_next w, h') /\ live X h' (new_var w s).
Proof. one (ANewVar s). onefin. exists h'. split; auto. Qed.
Definition w_setval (w : world) (v : nat) (i : iface) : world :=
  World (w_next w) (w_map w) (w_arr w) (put (w_val w) v i) (w_var w).
Lemma run_ValSet X h w v i j : live X h w -> w_val w v = Some j -> ok_object w i ->
  exists h', value_SetObject v i h = Ok (tt, h') /\ live X h' (w_setval w v i).
Proof.
  intros L H K. assert (Hv : has (w_val w) v) by (eexists; eauto).
  one (AValSetObject v i). onefin. destruct r. exists h'. split; auto.
Qed.

Lemma grows_newval w i : bounded w -> grows w (new_val w i).
Proof. intros B. apply (evo_grows _ _ (fun _ => False)). now apply evo_newval. Qed.
Lemma grows_newvar w i : bounded w -> grows w (new_var w i).
Proof. intros B. apply (evo_grows _ _ (fun _ => False)). now apply evo_newvar. Qed.
Lemma grows_newmap w : bounded w -> grows w (w_newmap w).
Proof. intros B. apply (evo_grows _ _ (fun _ => False)). now apply evo_newmap. Qed.
Lemma grows_newarr w : bounded w -> grows w (w_newarr w).
Proof. intros B. apply (evo_grows _ _ (fun _ => False)). now apply evo_newarr. Qed.

Definition below (b : nat) : nat -> Prop := fun l => l < b.

Fixpoint depth (k : content) : nat :=
  match k with
  | HArr l => S (list_max (map depth l))
  | HMap l => S (list_max (map (fun xk => depth (snd xk)) l))
  | _ => 1
  end.

Lemma same_below_keeps b w w' : same_below b w w' -> keeps_on w w' (below b) (below b).
Proof.
  intros [Sm Sa Sv Sr]. split; [auto|].
  repeat split; intros l d Hl H; [rewrite Sm|rewrite Sa|rewrite Sv|rewrite Sr]; auto.
Qed.
Lemma below_le w b b' : b <= b' -> keeps_on w w (below b) (below b').
Proof. intros L. apply keeps_on_mono. unfold below. lia. Qed.
Lemma bounded_below w : bounded w -> keeps_on w w anywhere (below (w_next w)).
Proof.
  intros (Bv & Br & Bm & Ba). split; [|repeat split; auto].
  intros l _. unfold below. destruct (Nat.lt_ge_cases l (w_next w)) as [|G]; auto. right.
  repeat split; match goal with |- ?f ?l = None => destruct (f l) eqn:E; auto end;
    [apply Bm in E|apply Ba in E|apply Bv in E|apply Br in E]; lia.
Qed.

Section Run.
  Context (X : ext).

  Lemma error_messages_spec l :
    match error_messages l with
    | Some ms => existsb is_no_error l = false /\ map error_message l = ms
    | None => existsb is_no_error l = true
    end.
  Proof.
    induction l as [|[|s|n s] l IH]; cbn; auto; destruct (error_messages l) as [ms|]; auto;
      destruct IH as [-> ->]; auto.
  Qed.

  Definition outcome {A} (w : world) (k : content) (r : res (gres A * heap)) (good : world -> A -> Prop) : Prop :=
    if crashes X k then r = Panic
    else exists h' w', live X h' w' /\ grows w w' /\
      match rejects X k with
      | [] => exists c, r = Ok (GVal c, h') /\ good w' c
      | e => r = Ok (GErr e, h')
      end.

  Record rec_ok (f : nat) : Prop := {
    rec_map : forall h w m d es, live X h w -> depth (HMap es) <= f ->
      w_map w m = Some d -> holds_members w (below (w_next w)) d es ->
      outcome w (HMap es) (clone f X KMap m h)
        (fun w' c => made_obj w' (w_next w) (w_next w') (IPMap (Some c)) (copy X (HMap es)));
    rec_arr : forall h w a l ks, live X h w -> depth (HArr ks) <= f ->
      w_arr w a = Some l -> holds_elems w (below (w_next w)) l ks ->
      outcome w (HArr ks) (clone f X KArr a h)
        (fun w' c => made_obj w' (w_next w) (w_next w') (IPArr (Some c)) (copy X (HArr ks)));
    rec_leaf : forall h w v i k, live X h w -> 1 <= f ->
      w_val w v = Some i -> container i = None -> holds_obj w (below (w_next w)) i k ->
      outcome w k (clone f X KVal v h)
        (fun w' c => made_value w' (w_next w) (w_next w') (Some c) (copy X k)) }.

  Lemma bind_ok {A B} (m : M A) (g : A -> M B) h a h' : m h = Ok (a, h') -> bind m g h = g a h'.
  Proof. intros E. unfold bind. now rewrite E. Qed.
  Lemma lift_ok {A B} (q : heap -> res A) (g : A -> M B) h a : q h = Ok a -> bind (mlift q) g h = g a h.
  Proof. intros E. unfold bind, mlift. now rewrite E. Qed.

  Lemma grows_setval w v i j : w_val w v = Some j -> bounded w -> v = w_next w -> grows w (w_setval w v i).
  Proof. intros H (Bv & _) ->. apply Bv in H. lia. Qed.

  Lemma leaf_ok f h w v i k : live X h w ->
    w_val w v = Some i -> container i = None -> holds_obj w (below (w_next w)) i k ->
    outcome w k (clone (S f) X KVal v h)
      (fun w' c => made_value w' (w_next w) (w_next w') (Some c) (copy X k)).
  Proof.
    intros L Hv C H. pose proof (live_bounded _ _ _ L) as B.
    assert (Lv : v < w_next w) by (destruct B as (Bv & _); eauto).
    destruct (run_new_value X h w INil L Logic.I) as (h1 & E1 & L1).
    cbn [clone]. unfold clone_value_body. rewrite (bind_ok _ _ _ _ _ E1).
    assert (R : rd_val h1 v = Ok i).
    { apply (live_rd_val _ _ _ _ _ L1). cbn. rewrite put_other; [auto|lia]. }
    rewrite (lift_ok _ _ h1 (common_GetType X i)) by (unfold value_GetType; rewrite R; reflexivity).
    assert (G1 : grows w (new_val w INil)) by now apply grows_newval.
    assert (Bad : forall e, crashes X k = false -> rejects X k = [e] ->
      outcome w k (Ok (GErr [e], h1)) (fun w' (c : nat) => made_value w' (w_next w) (w_next w') (Some c) (copy X k))).
    { intros e Cr Re. unfold outcome. rewrite Cr, Re. exists h1, (new_val w INil). auto. }
    assert (Set_ : forall w2 h2 j, live X h2 w2 -> grows (new_val w INil) w2 -> ok_object w2 j ->
      made_obj (w_setval w2 (w_next w) j) (S (w_next w)) (w_next w2) j (copy X k) ->
      crashes X k = false -> rejects X k = [] ->
      outcome w k (bind (value_SetObject (w_next w) j) (fun _ => ret (GVal (w_next w))) h2)
        (fun w' c => made_value w' (w_next w) (w_next w') (Some c) (copy X k))).
    { intros w2 h2 j L2 G2 Oj Mj Cr Re. unfold outcome. rewrite Cr, Re.
      assert (V2 : w_val w2 (w_next w) = Some INil).
      { destruct G2 as [_ [_ _ S _]]. rewrite S by (cbn; lia). cbn. apply put_same. }
      destruct (run_ValSet X h2 w2 (w_next w) j INil L2 V2 Oj) as (h3 & E3 & L3).
      exists h3, (w_setval w2 (w_next w) j). split; auto. split.
      - pose proof (gr_next _ _ G2) as N2. cbn in N2. destruct G2 as [_ [Sm Sa Sv Sr]]. cbn in *.
        split; cbn; [lia|]. split; cbn; intros l Hl.
        + rewrite Sm by lia. reflexivity.
        + rewrite Sa by lia. reflexivity.
        + rewrite put_other by lia. rewrite Sv by lia. cbn. now rewrite put_other by lia.
        + rewrite Sr by lia. reflexivity.
      - exists (w_next w). rewrite (bind_ok _ _ _ _ _ E3). split; auto.
        pose proof (gr_next _ _ G2) as N2. cbn in N2 |- *.
        apply mv_some with (a := S (w_next w)) (b := w_next w2) (i := j); try (cbn; lia); auto.
        cbn. apply put_same. }
    assert (R2 : forall h2 w2, live X h2 w2 -> grows (new_val w INil) w2 -> rd_val h2 v = Ok i).
    { intros h2 w2 L2 [_ [_ _ S _]]. apply (live_rd_val _ _ _ _ _ L2). rewrite S by (cbn; lia).
      cbn. rewrite put_other; [auto|lia]. }
    assert (Tail : forall o h2, clone_plain X i h1 = Ok (o, h2) ->
      bind (mlift (fun h => value_GetObject h v)) (fun i => bind (clone_plain X i) (fun o =>
        match o with
        | Some j => bind (value_SetObject (w_next w) j) (fun _ => ret (GVal (w_next w)))
        | None => ret (GErr [EUnsupported])
        end)) h1
      = match o with
        | Some j => bind (value_SetObject (w_next w) j) (fun _ => ret (GVal (w_next w))) h2
        | None => Ok (GErr [EUnsupported], h2)
        end).
    { intros o h2 E. rewrite (lift_ok _ _ h1 i) by (unfold value_GetObject; now rewrite R).
      rewrite (bind_ok _ _ _ _ _ E). now destruct o. }
    assert (Crash : fate_of X i = Crashes -> k = HLeaf i -> clone_plain X i h1 = Panic ->
      outcome w k (bind (mlift (fun h => value_GetObject h v)) (fun i => bind (clone_plain X i) (fun o =>
        match o with
        | Some j => bind (value_SetObject (w_next w) j) (fun _ => ret (GVal (w_next w)))
        | None => ret (GErr [EUnsupported])
        end)) h1) (fun w' c => made_value w' (w_next w) (w_next w') (Some c) (copy X k))).
    { intros Fj -> E. unfold outcome. cbn [crashes]. rewrite Fj.
      rewrite (lift_ok _ _ h1 i) by (unfold value_GetObject; now rewrite R). unfold bind at 1. now rewrite E. }
    assert (Copy : forall j, fate_of X i = Copied j -> k = HLeaf i -> leaf j -> ok_object (new_val w INil) j ->
      outcome w k (bind (value_SetObject (w_next w) j) (fun _ => ret (GVal (w_next w))) h1)
        (fun w' c => made_value w' (w_next w) (w_next w') (Some c) (copy X k))).
    { intros j Fj -> Lj Oj. apply (Set_ (new_val w INil)); auto using grows_refl; cbn; try now rewrite Fj.
      rewrite Fj. now constructor. }
    assert (NM : clone_map_of (clone f X) X v h1 =
      match (if iface_IsNil X i then GVal None else match i with IMap m => GVal (Some m) | IPMap o => GVal o | _ => GErr [EType] end) with
      | GErr e => Ok (GErr e, h1) | GVal None => Ok (GErr [ECloneNil], h1) | GVal (Some m) => clone f X KMap m h1 end).
    { unfold clone_map_of, bind, mlift, value_GetMap. rewrite R. cbn [rbind]. destruct (iface_IsNil X i); auto. destruct i as [| | | |[]| | | | | | |[?|]|[?|]| |[?|]| | |[?|]|[?|]|? [?|]]; auto. }
    assert (NA : clone_arr_of (clone f X) X v h1 =
      match (if iface_IsNil X i then GVal None else match i with IArr m => GVal (Some m) | IPArr o => GVal o | _ => GErr [EType] end) with
      | GErr e => Ok (GErr e, h1) | GVal None => Ok (GErr [ECloneNil], h1) | GVal (Some m) => clone f X KArr m h1 end).
    { unfold clone_arr_of, bind, mlift, value_GetArray. rewrite R. cbn [rbind]. destruct (iface_IsNil X i); auto. destruct i as [| | | | | |[]| | | | |[?|]|[?|]| |[?|]| | |[?|]|[?|]|? [?|]]; auto. }
    inversion H as [j Lf|t p s Fp Hp T|j m d es Hi|j a l ks Hi]; subst.
    - (* leaf *)
      destruct i as [|s|t [p|]|m|[m|]|a|[a|]|x|[x|]|l|l|[l|]|[l|]|e|[[|e|te e]|]|n|b|[b|]|[n|]|n [d|]]; try discriminate;
        unfold iface_IsNil, common_GetType in *; cbn [common_IsNil andb orb static_type] in *;
        try (destruct (x_typed_nil X) eqn:Tn; cbn [andb] in * );
        try (unfold common_IsArray at 1; cbn [common_IsMap];
             match goal with |- context [x_is_array X ?t] => destruct (x_is_array X t) eqn:Ia | _ => idtac end);
        cbn [common_IsMap common_IsArray].
      all: try (rewrite (bind_ok _ _ _ _ _ NM); apply Bad; cbn; rewrite ?Tn; reflexivity).
      all: try (rewrite (bind_ok _ _ _ _ _ NA); apply Bad; cbn; rewrite ?Tn, ?Ia; reflexivity).
      all: try (erewrite Tail by (unfold clone_plain, common_GetType; cbn; rewrite ?Tn; reflexivity);
                first [apply Bad; cbn; rewrite ?Tn, ?Ia; reflexivity
                      |apply Copy; cbn; rewrite ?Tn, ?Ia; try reflexivity; exact Logic.I]).
      all: try (unfold outcome; cbn; rewrite ?Tn; unfold bind, mlift, value_GetObject; rewrite R; cbn;
                unfold clone_plain, common_GetType; cbn; rewrite ?Tn; cbn; reflexivity).
      all: try (unfold common_recognised in NA; cbn in NA; rewrite Ia in NA; cbn in NA;
         rewrite (bind_ok _ _ _ _ _ NA); apply Bad; cbn; rewrite ?Ia; reflexivity).
      all: try (destruct b; (erewrite Tail by (unfold clone_plain, common_GetType; cbn; reflexivity));
                [apply Copy; cbn; try reflexivity; exact Logic.I | apply Bad; reflexivity]).
      1,2: pose proof (error_messages_spec l) as Em; destruct (error_messages l) as [ms|] eqn:El;
        [ erewrite Tail by (unfold clone_plain, common_GetType; cbn; rewrite ?Tn, (proj1 Em); reflexivity);
          apply Copy; cbn [fate_of]; rewrite ?Ia, ?El; try reflexivity; try exact Logic.I;
          rewrite <- (proj2 Em), map_map; reflexivity
        | apply Crash; cbn [fate_of]; rewrite ?Ia, ?El; try reflexivity;
          unfold clone_plain, common_GetType; cbn; rewrite ?Tn, Em; reflexivity ].
      1,2: assert (Cp : clone_plain X (IOther n (Some d)) h1
        = if str_eqb n foreign then Ok (Some (IScal (SStr n)), h1)
          else if str_eqb n (lit "exec.ExitError") then Ok (Some (IErr (x_errorf X (x_sprint X (IOther n (Some d))))), h1)
          else if str_eqb n (lit "*exec.ExitError") || str_eqb n (lit "*url.Error")
          then Ok (Some (IPErr (Some (Plain (x_errorf X (x_sprint X (IOther n (Some d))))))), h1) else Ok (None, h1))
        by (unfold clone_plain, common_GetType; cbn [common_IsNil static_type andb]; rewrite andb_false_r;
            change (lit "map[string]map[string][][]string") with foreign; cbn [error_types existsb];
            destruct (str_eqb n foreign), (str_eqb n (lit "exec.ExitError")), (str_eqb n (lit "*exec.ExitError")), (str_eqb n (lit "*url.Error"));
            reflexivity);
        destruct (str_eqb n foreign) eqn:En;
        [rewrite (Tail _ _ Cp); apply Copy; unfold fate_of; rewrite ?En; try reflexivity; exact Logic.I|];
        destruct (str_eqb n (lit "exec.ExitError")) eqn:Ee;
        [rewrite (Tail _ _ Cp); apply Copy; unfold fate_of; rewrite ?En, ?Ee; try reflexivity; exact Logic.I|];
        destruct (str_eqb n (lit "*exec.ExitError") || str_eqb n (lit "*url.Error")) eqn:Ep; rewrite (Tail _ _ Cp);
        [apply Copy; unfold fate_of; rewrite ?En, ?Ee, ?Ep; try reflexivity; exact Logic.I
        |apply Bad; unfold crashes, rejects, fate_of; now rewrite En, Ee, Ep].
      assert (Cp : clone_plain X (IOther n None) h1
        = if str_eqb n foreign then Ok (Some (IScal (SStr n)), h1)
          else if existsb (str_eqb n) error_types then Panic else Ok (None, h1)).
      { unfold clone_plain, common_GetType. cbn [common_IsNil static_type andb]. rewrite Tn, andb_true_r.
        change (lit "map[string]map[string][][]string") with foreign. destruct (str_eqb n foreign); [reflexivity|].
        cbn [error_types existsb]. destruct (str_eqb n (lit "exec.ExitError")) eqn:Ee; [now rewrite !orb_true_r|].
        destruct (_ || _); reflexivity. }
      destruct (str_eqb n foreign) eqn:En.
      + rewrite (Tail _ _ Cp). apply Copy; unfold fate_of; rewrite ?Tn, ?En; try reflexivity; exact Logic.I.
      + assert (Et : existsb (str_eqb n) error_types
                 = str_eqb n (lit "exec.ExitError") || str_eqb n (lit "*exec.ExitError") || str_eqb n (lit "*url.Error")).
        { cbn [error_types existsb]. destruct (str_eqb n (lit "exec.ExitError")), (str_eqb n (lit "*exec.ExitError")), (str_eqb n (lit "*url.Error")); reflexivity. }
        rewrite Et in Cp.
        destruct (str_eqb n (lit "exec.ExitError") || str_eqb n (lit "*exec.ExitError") || str_eqb n (lit "*url.Error")) eqn:Ee.
        * apply Crash; auto. unfold fate_of. now rewrite Tn, En, Ee.
        * rewrite (Tail _ _ Cp). apply Bad; unfold crashes, rejects, fate_of; now rewrite Tn, En, Ee.
    - (* variable *)
      cbn in Lv. assert (N0 : common_GetType X (IPtr (stype_of s) (Some p)) = TPtr (stype_of s)) by reflexivity.
      rewrite N0. cbn [common_IsMap common_IsArray].
      destruct (run_new_var X h1 (new_val w INil) s L1) as (h2 & E2 & L2).
      assert (Rp : rd_ptr h1 p = Ok s).
      { apply rd_ptr_iff. apply (im_var _ _ (proj2 L1)). exact Hp. }
      assert (Hd : deref h1 (IPtr (stype_of s) (Some p)) = Ok (Some s)).
      { unfold deref. rewrite Rp. cbn. destruct (stype_of s) as [| |k0|[]]; cbn; auto. now destruct k0. }
      erewrite Tail.
      2: { unfold clone_plain. rewrite N0. rewrite (lift_ok _ _ h1 (Some s)) by exact Hd.
           rewrite (bind_ok _ _ _ _ _ E2). reflexivity. }
      apply (Set_ (new_var (new_val w INil) s)); auto.
      + apply grows_newvar. apply (live_bounded _ _ _ L1).
      + exists s. cbn. rewrite put_same. auto.
      + cbn. apply md_var; [cbn; lia|]. cbn. apply put_same.
    - destruct Hi as [-> | ->]; discriminate.
    - destruct Hi as [-> | ->]; discriminate.
  Qed.

  (** What the loops of Clone do with one stored Value. *)
  Lemma child_ok f h w v i k : rec_ok f -> live X h w ->
    w_val w v = Some i -> holds_obj w (below (w_next w)) i k -> depth k <= f ->
    let g := common_GetType X i in
    (common_IsMap g = true ->
       outcome w k (clone_map_of (clone f X) X v h)
         (fun w' c => made_obj w' (w_next w) (w_next w') (IPMap (Some c)) (copy X k)))
    /\ (common_IsMap g = false -> common_IsArray X g = true ->
       outcome w k (clone_arr_of (clone f X) X v h)
         (fun w' c => made_obj w' (w_next w) (w_next w') (IPArr (Some c)) (copy X k)))
    /\ ((common_IsMap g = false /\ common_IsArray X g = false) \/ common_IsNil i = true ->
       outcome w k (clone f X KVal v h)
         (fun w' c => made_value w' (w_next w) (w_next w') (Some c) (copy X k))).
  Proof.
    intros RO L Hv H D g. subst g. pose proof (live_rd_val _ _ _ _ _ L Hv) as R.
    assert (D1 : 1 <= f) by (destruct k; cbn in D; lia).
    assert (G3 : container i = None -> outcome w k (clone f X KVal v h)
         (fun w' c => made_value w' (w_next w) (w_next w') (Some c) (copy X k))).
    { intros C. exact (rec_leaf _ RO h w v i k L D1 Hv C H). }
    assert (Bad : forall {A} e (good : world -> A -> Prop), crashes X k = false -> rejects X k = [e] ->
      outcome w k (Ok (GErr [e], h)) good).
    { intros A e good Cr Re. unfold outcome. rewrite Cr, Re. exists h, w. split; auto. split; auto using grows_refl. }
    assert (NM : clone_map_of (clone f X) X v h =
      match (if iface_IsNil X i then GVal None else match i with IMap m => GVal (Some m) | IPMap o => GVal o | _ => GErr [EType] end) with
      | GErr e => Ok (GErr e, h) | GVal None => Ok (GErr [ECloneNil], h) | GVal (Some m) => clone f X KMap m h end).
    { unfold clone_map_of, bind, mlift, value_GetMap. rewrite R. cbn [rbind]. destruct (iface_IsNil X i); auto. destruct i as [| | | |[]| | | | | | |[?|]|[?|]| |[?|]| | |[?|]|[?|]|? [?|]]; auto. }
    assert (NA : clone_arr_of (clone f X) X v h =
      match (if iface_IsNil X i then GVal None else match i with IArr m => GVal (Some m) | IPArr o => GVal o | _ => GErr [EType] end) with
      | GErr e => Ok (GErr e, h) | GVal None => Ok (GErr [ECloneNil], h) | GVal (Some m) => clone f X KArr m h end).
    { unfold clone_arr_of, bind, mlift, value_GetArray. rewrite R. cbn [rbind]. destruct (iface_IsNil X i); auto. destruct i as [| | | | | |[]| | | | |[?|]|[?|]| |[?|]| | |[?|]|[?|]|? [?|]]; auto. }
    inversion H as [j Lf|t p s Fp Hp T|j m d es Hi Fm Hm He|j a l ks Hi Fa Ha He]; subst.
    - destruct i as [|s|t [p|]|m|[m|]|a|[a|]|x|[x|]|l|l|[l|]|[l|]|e|[[|e|te e]|]|n|b|[b|]|[n|]|n [d|]]; try discriminate;
        (split; [|split]); unfold common_GetType, iface_IsNil in *; cbn [common_IsNil andb orb static_type] in *;
        try (intros _; apply G3; reflexivity);
        try (destruct (x_typed_nil X) eqn:Tn); cbn [common_IsMap common_IsArray]; try discriminate; intros.
      all: try (rewrite NM; apply Bad; cbn; rewrite ?Tn; reflexivity).
      all: try (rewrite NA; apply Bad; cbn; rewrite ?Tn; reflexivity).
      all: try (match goal with H : x_is_array X ?t = true |- _ => rewrite NA; apply Bad; cbn; rewrite ?Tn, ?H; reflexivity end).
      all: match goal with H : x_is_array X ?t = true |- _ =>
             unfold common_recognised, common_GetType in NA; cbn in NA; rewrite H in NA; cbn in NA; rewrite NA; apply Bad; cbn; rewrite ?H; reflexivity end.
    - split; [|split]; try discriminate. intros _. apply G3. reflexivity.
    - assert (Q : clone_map_of (clone f X) X v h = clone f X KMap m h) by (rewrite NM; destruct Hi as [-> | ->]; reflexivity).
      assert (Gm : common_IsMap (common_GetType X i) = true) by (destruct Hi as [-> | ->]; reflexivity).
      assert (Gn : common_IsNil i = false) by (destruct Hi as [-> | ->]; reflexivity).
      rewrite Gm, Gn, Q. split; [|split].
      + intros _. eapply (rec_map _ RO); eauto.
      + discriminate.
      + intros [[? _]|?]; discriminate.
    - assert (Q : clone_arr_of (clone f X) X v h = clone f X KArr a h) by (rewrite NA; destruct Hi as [-> | ->]; reflexivity).
      assert (Gm : common_IsMap (common_GetType X i) = false) by (destruct Hi as [-> | ->]; reflexivity).
      assert (Ga : common_IsArray X (common_GetType X i) = true) by (destruct Hi as [-> | ->]; reflexivity).
      assert (Gn : common_IsNil i = false) by (destruct Hi as [-> | ->]; reflexivity).
      rewrite Gm, Ga, Gn, Q. split; [|split].
      + discriminate.
      + intros _ _. eapply (rec_arr _ RO); eauto.
      + intros [[_ ?]|?]; discriminate.
  Qed.

  (** A world that differs from another in one container and in new objects. *)
  Record but (c : nat) (w w' : world) : Prop := {
    bu_next : w_next w <= w_next w';
    bu_same : forall l, l < w_next w -> l <> c ->
      w_map w' l = w_map w l /\ w_arr w' l = w_arr w l /\ w_val w' l = w_val w l /\ w_var w' l = w_var w l }.

  Lemma grows_but c w w' : grows w w' -> but c w w'.
  Proof. intros [N [A B C D]]. split; auto. Qed.
  Lemma but_trans c w1 w2 w3 : but c w1 w2 -> but c w2 w3 -> but c w1 w3.
  Proof.
    intros [A B] [C D]. split; [lia|]. intros l Hl N. destruct (B l Hl N) as (E1 & E2 & E3 & E4).
    destruct (D l ltac:(lia) N) as (F1 & F2 & F3 & F4). repeat split; congruence.
  Qed.
  Lemma but_same b c w w' : b <= w_next w -> b <= c -> but c w w' -> same_below b w w'.
  Proof. intros L Lc [_ B]. split; intros l Hl; destruct (B l) as (? & ? & ? & ?); auto; lia. Qed.

  (** One round of a loop: the errors, and what becomes of the copy [c]. *)
  Definition round (w : world) (c : nat) (k : content) (r : res (list err * heap)) (ok keep : world -> Prop) : Prop :=
    if crashes X k then r = Panic
    else exists h' w', live X h' w' /\ but c w w' /\ r = Ok (rejects X k, h')
      /\ (rejects X k = [] -> ok w') /\ (rejects X k <> [] -> keep w').

  Definition put_obj (mk : nat -> iface) : Prop := mk = (fun z => IPMap (Some z)) \/ mk = (fun z => IPArr (Some z)).
  Lemma made_ok mk w lo hi z k : put_obj mk -> made_obj w lo hi (mk z) k -> ok_object w (mk z).
  Proof.
    intros [-> | ->] H; inversion H as [? ? ? Lf|? ? ? ? ? ?|? ? ? ? ? ? E ?|? ? ? ? ? ? E ?]; subst; try discriminate; cbn; eexists; eauto.
  Qed.

  Definition has_member (c : nat) (dc : dict (option nat)) (x : str) (k : content) (w : world) (w' : world) : Prop :=
    exists o, w_map w' c = Some (dc ++ [(x, o)]) /\ made_value w' (w_next w) (w_next w') o (copy X k).
  Definition has_elem (c : nat) (lc : list (option nat)) (k : content) (w : world) (w' : world) : Prop :=
    exists o, w_arr w' c = Some (lc ++ [o]) /\ made_value w' (w_next w) (w_next w') o (copy X k).

  Lemma but_set_map w c i d : bounded w -> but c w (set_map (new_val w i) c d).
  Proof.
    intros (Bv & _). split; cbn; [lia|]. intros l Hl N. rewrite put_other by auto.
    rewrite put_other by lia. auto.
  Qed.
  Lemma but_set_map0 w c d : but c w (set_map w c d).
  Proof. split; cbn; [lia|]. intros l Hl N. rewrite put_other by auto. auto. Qed.
  Lemma but_set_arr w c i d : bounded w -> but c w (set_arr (new_val w i) c d).
  Proof.
    intros (Bv & _). split; cbn; [lia|]. intros l Hl N. rewrite put_other by auto.
    rewrite put_other by lia. auto.
  Qed.
  Lemma but_set_arr0 w c d : but c w (set_arr w c d).
  Proof. split; cbn; [lia|]. intros l Hl N. rewrite put_other by auto. auto. Qed.

  Lemma made_value_new (mk : nat -> iface) w w1 c z k w2 :
    c < w_next w -> w_next w <= w_next w1 -> but c w1 w2 -> S (w_next w1) <= w_next w2 ->
    w_val w2 (w_next w1) = Some (mk z) -> made_obj w1 (w_next w) (w_next w1) (mk z) k ->
    made_value w2 (w_next w) (w_next w2) (Some (w_next w1)) k.
  Proof.
    intros Lc N [_ B] N2 V M. apply mv_some with (a := w_next w) (b := w_next w1) (i := mk z); auto; try lia.
    eapply (proj1 (made_frame w1 w2)); [exact M|lia|lia|]. intros l Hl. apply B; lia.
  Qed.
  Lemma made_value_keep w w1 c k w2 o :
    c < w_next w -> but c w1 w2 ->
    made_value w1 (w_next w) (w_next w1) o k -> made_value w2 (w_next w) (w_next w2) o k.
  Proof.
    intros Lc [N B] M. eapply (proj1 (proj2 (made_frame w1 w2))); [exact M|lia|lia|]. intros l Hl. apply B; lia.
  Qed.

  Section Add.
    Context (w : world) (h : heap) (c : nat) (k : content) (L : live X h w) (Lc : c < w_next w).

    Lemma add_map_obj mk (q : M (gres nat)) dc x : put_obj mk ->
      w_map w c = Some dc -> dict_get dc x = None ->
      outcome w k (q h) (fun w' z => made_obj w' (w_next w) (w_next w') (mk z) (copy X k)) ->
      round w c k (bind q (fun r => match r with
                                    | GErr e => ret e
                                    | GVal z => bind (map_SetObject c x (mk z)) (fun _ => ret []) end) h)
        (has_member c dc x k w) (fun w' => w_map w' c = Some dc).
    Proof.
      intros Mk Hc Hx O. unfold outcome, round in *. destruct (crashes X k).
      { unfold bind. now rewrite O. }
      destruct O as (h1 & w1 & L1 & G1 & R). pose proof (live_bounded _ _ _ L1) as B1.
      assert (Hc1 : w_map w1 c = Some dc) by (destruct G1 as [_ [S _ _ _]]; rewrite S; auto).
      destruct (rejects X k) as [|e es] eqn:Er.
      - destruct R as (z & R & Mz). rewrite (bind_ok _ _ _ _ _ R).
        destruct (run_SetObject X h1 w1 c x (mk z) dc L1 Hc1 (made_ok _ _ _ _ _ _ Mk Mz)) as (h2 & E2 & L2).
        exists h2, (set_map (new_val w1 (mk z)) c (dict_set dc x (Some (w_next w1)))).
        split; auto. assert (B2 : but c w1 (set_map (new_val w1 (mk z)) c (dict_set dc x (Some (w_next w1))))) by now apply but_set_map.
        split; [eapply but_trans; [apply grows_but; eauto|exact B2]|]. rewrite (bind_ok _ _ _ _ _ E2).
        split; auto. split; [intros _|congruence]. exists (Some (w_next w1)). split.
        + cbn. rewrite put_same. f_equal. now apply dict_set_notin.
        + eapply made_value_new with (mk := mk) (z := z) (c := c); eauto; [apply (gr_next _ _ G1)|].
          cbn. apply put_same.
      - exists h1, w1. split; auto. split; [now apply grows_but|]. rewrite (bind_ok _ _ _ _ _ R).
        split; auto. split; [discriminate|auto].
    Qed.

    Lemma add_map_value (q : M (gres nat)) dc x :
      w_map w c = Some dc -> dict_get dc x = None ->
      outcome w k (q h) (fun w' z => made_value w' (w_next w) (w_next w') (Some z) (copy X k)) ->
      round w c k (bind q (fun r => match r with
                                    | GErr e => ret e
                                    | GVal z => bind (map_SetValue c x (Some z)) (fun _ => ret []) end) h)
        (has_member c dc x k w) (fun w' => w_map w' c = Some dc).
    Proof.
      intros Hc Hx O. unfold outcome, round in *. destruct (crashes X k).
      { unfold bind. now rewrite O. }
      destruct O as (h1 & w1 & L1 & G1 & R). pose proof (live_bounded _ _ _ L1) as B1.
      assert (Hc1 : w_map w1 c = Some dc) by (destruct G1 as [_ [S _ _ _]]; rewrite S; auto).
      destruct (rejects X k) as [|e es] eqn:Er.
      - destruct R as (z & R & Mz). rewrite (bind_ok _ _ _ _ _ R).
        assert (Oz : ok_value_handle w1 (Some z)) by (inversion Mz; subst; cbn; eexists; eauto).
        destruct (run_SetValue X h1 w1 c x (Some z) dc L1 Hc1 Oz) as (h2 & E2 & L2).
        exists h2, (set_map w1 c (dict_set dc x (Some z))).
        split; auto. assert (B2 : but c w1 (set_map w1 c (dict_set dc x (Some z)))) by apply but_set_map0.
        split; [eapply but_trans; [apply grows_but; eauto|exact B2]|]. rewrite (bind_ok _ _ _ _ _ E2).
        split; auto. split; [intros _|congruence]. exists (Some z). split.
        + cbn. rewrite put_same. f_equal. now apply dict_set_notin.
        + eapply made_value_keep with (c := c); eauto.
      - exists h1, w1. split; auto. split; [now apply grows_but|]. rewrite (bind_ok _ _ _ _ _ R).
        split; auto. split; [discriminate|auto].
    Qed.

    Lemma add_arr_obj mk (q : M (gres nat)) lc : put_obj mk ->
      w_arr w c = Some lc ->
      outcome w k (q h) (fun w' z => made_obj w' (w_next w) (w_next w') (mk z) (copy X k)) ->
      round w c k (bind q (fun r => match r with
                                    | GErr e => ret e
                                    | GVal z => bind (arr_AppendObject c (mk z)) (fun _ => ret []) end) h)
        (has_elem c lc k w) (fun w' => w_arr w' c = Some lc).
    Proof.
      intros Mk Hc O. unfold outcome, round in *. destruct (crashes X k).
      { unfold bind. now rewrite O. }
      destruct O as (h1 & w1 & L1 & G1 & R). pose proof (live_bounded _ _ _ L1) as B1.
      assert (Hc1 : w_arr w1 c = Some lc) by (destruct G1 as [_ [_ S _ _]]; rewrite S; auto).
      destruct (rejects X k) as [|e es] eqn:Er.
      - destruct R as (z & R & Mz). rewrite (bind_ok _ _ _ _ _ R).
        destruct (run_AppendObject X h1 w1 c (mk z) lc L1 Hc1 (made_ok _ _ _ _ _ _ Mk Mz)) as (h2 & E2 & L2).
        exists h2, (set_arr (new_val w1 (mk z)) c (lc ++ [Some (w_next w1)])).
        split; auto. assert (B2 : but c w1 (set_arr (new_val w1 (mk z)) c (lc ++ [Some (w_next w1)]))) by now apply but_set_arr.
        split; [eapply but_trans; [apply grows_but; eauto|exact B2]|]. rewrite (bind_ok _ _ _ _ _ E2).
        split; auto. split; [intros _|congruence]. exists (Some (w_next w1)). split.
        + cbn. now rewrite put_same.
        + eapply made_value_new with (mk := mk) (z := z) (c := c); eauto; [apply (gr_next _ _ G1)|].
          cbn. apply put_same.
      - exists h1, w1. split; auto. split; [now apply grows_but|]. rewrite (bind_ok _ _ _ _ _ R).
        split; auto. split; [discriminate|auto].
    Qed.

    Lemma add_arr_value (q : M (gres nat)) lc :
      w_arr w c = Some lc ->
      outcome w k (q h) (fun w' z => made_value w' (w_next w) (w_next w') (Some z) (copy X k)) ->
      round w c k (bind q (fun r => match r with
                                    | GErr e => ret e
                                    | GVal z => bind (arr_AppendValue c (Some z)) (fun _ => ret []) end) h)
        (has_elem c lc k w) (fun w' => w_arr w' c = Some lc).
    Proof.
      intros Hc O. unfold outcome, round in *. destruct (crashes X k).
      { unfold bind. now rewrite O. }
      destruct O as (h1 & w1 & L1 & G1 & R). pose proof (live_bounded _ _ _ L1) as B1.
      assert (Hc1 : w_arr w1 c = Some lc) by (destruct G1 as [_ [_ S _ _]]; rewrite S; auto).
      destruct (rejects X k) as [|e es] eqn:Er.
      - destruct R as (z & R & Mz). rewrite (bind_ok _ _ _ _ _ R).
        assert (Oz : ok_value_handle w1 (Some z)) by (inversion Mz; subst; cbn; eexists; eauto).
        destruct (run_AppendValue X h1 w1 c (Some z) lc L1 Hc1 Oz) as (h2 & E2 & L2).
        exists h2, (set_arr w1 c (lc ++ [Some z])).
        split; auto. assert (B2 : but c w1 (set_arr w1 c (lc ++ [Some z]))) by apply but_set_arr0.
        split; [eapply but_trans; [apply grows_but; eauto|exact B2]|]. rewrite (bind_ok _ _ _ _ _ E2).
        split; auto. split; [intros _|congruence]. exists (Some z). split.
        + cbn. now rewrite put_same.
        + eapply made_value_keep with (c := c); eauto.
      - exists h1, w1. split; auto. split; [now apply grows_but|]. rewrite (bind_ok _ _ _ _ _ R).
        split; auto. split; [discriminate|auto].
    Qed.
  End Add.

  (** One member of a map. *)
  Lemma key_ok f h w m d c dc x o k : rec_ok f -> live X h w -> depth k <= f ->
    w_map w m = Some d -> dict_get d x = Some o -> holds_value w (below (w_next w)) o k ->
    c < w_next w -> w_map w c = Some dc -> dict_get dc x = None ->
    round w c k (clone_key (clone f X) X m c x h) (has_member c dc x k w) (fun w' => w_map w' c = Some dc).
  Proof.
    intros RO L D Hm Hx H Lc Hc Nx. pose proof (live_bounded _ _ _ L) as B.
    assert (Hm' := Hm). apply (im_map _ _ (proj2 L)) in Hm' as (mo & Nm & Ek & _ & _ & G).
    apply rd_map_iff in Nm.
    assert (GV : map_GetValue h m x = Ok o) by (unfold map_GetValue; rewrite Nm; cbn; now rewrite G, Hx).
    assert (Is : forall p, map_is p X h m x = Ok (match o with
      | None => false
      | Some v => match w_val w v with Some i => if common_IsNil i then false else p (common_GetType X i) | None => false end
      end)).
    { intros p. unfold map_is, map_via, map_IsNull. rewrite Nm. cbn [rbind]. rewrite G, Hx.
      inversion H as [|v i k' Fv Hv Ho]; subst; [reflexivity|].
      pose proof (live_rd_val _ _ _ _ _ L Hv) as R. rewrite R. cbn [rbind]. rewrite Hv. destruct (common_IsNil i); auto.
      rewrite GV. cbn [rbind]. unfold value_is. now rewrite R. }
    unfold clone_key.
    rewrite (lift_ok _ _ h _ (Is common_IsMap)), (lift_ok _ _ h _ (Is (common_IsArray X))), (lift_ok _ _ h _ GV).
    inversion H as [|v i k' Fv Hv Ho]; subst.
    - (* nil *Value *)
      unfold round. cbn [crashes rejects].
      destruct (run_SetObject X h w c x INil dc L Hc Logic.I) as (h2 & E2 & L2).
      eexists h2, _. split; [exact L2|]. split; [now apply but_set_map|]. rewrite (bind_ok _ _ _ _ _ E2).
      split; auto. split; [intros _|congruence]. exists (Some (w_next w)). split.
      + cbn. rewrite put_same. f_equal. now apply dict_set_notin.
      + cbn. apply mv_some with (a := w_next w) (b := w_next w) (i := INil); cbn; try lia.
        * apply put_same.
        * now constructor.
    - destruct (child_ok f h w v i k RO L Hv Ho D) as (C1 & C2 & C3). rewrite Hv.
      destruct (common_IsNil i) eqn:Ni.
      + apply add_map_value; auto.
      + destruct (common_IsMap (common_GetType X i)) eqn:Im; [|destruct (common_IsArray X (common_GetType X i)) eqn:Ia].
        * apply (add_map_obj w h c k Lc (fun z => IPMap (Some z))); auto. now left.
        * apply (add_map_obj w h c k Lc (fun z => IPArr (Some z))); auto. now right.
        * apply add_map_value; auto.
  Qed.

  Lemma elem_ok f h w c lc o k : rec_ok f -> live X h w -> depth k <= f ->
    holds_value w (below (w_next w)) o k -> is_none k = false ->
    c < w_next w -> w_arr w c = Some lc ->
    round w c k (clone_elem (clone f X) X c o h) (has_elem c lc k w) (fun w' => w_arr w' c = Some lc).
  Proof.
    intros RO L D H NN Lc Hc. unfold clone_elem. inversion H as [|v i k' Fv Hv Ho]; subst; [discriminate|].
    pose proof (live_rd_val _ _ _ _ _ L Hv) as R.
    rewrite (lift_ok _ _ h (common_GetType X i)) by (unfold value_GetType; now rewrite R).
    destruct (child_ok f h w v i k RO L Hv Ho D) as (C1 & C2 & C3).
    destruct (common_IsMap (common_GetType X i)) eqn:Im; [|destruct (common_IsArray X (common_GetType X i)) eqn:Ia].
    - apply (add_arr_obj w h c k Lc (fun z => IPMap (Some z))); auto. now left.
    - apply (add_arr_obj w h c k Lc (fun z => IPArr (Some z))); auto. now right.
    - apply add_arr_value; auto.
  Qed.

  Definition copy_members (es : list (str * content)) : list (str * content) :=
    map (fun xk => (fst xk, copy X (snd xk))) es.

  Lemma holds_but b c w w' (F : nat -> Prop) : b <= w_next w -> b <= c -> but c w w' -> (forall l, F l -> l < b) ->
    keeps_on w w' F F.
  Proof.
    intros L Lc U HF. pose proof (but_same b c w w' L Lc U) as [Sm Sa Sv Sr]. split; [auto|].
    repeat split; intros l d Hl H; [rewrite Sm|rewrite Sa|rewrite Sv|rewrite Sr]; auto.
  Qed.

  Lemma keys_ok f b m d c : rec_ok f -> m < b -> b <= c -> forall dr es h w dc,
    live X h w -> b <= w_next w -> c < w_next w -> w_map w m = Some d ->
    (forall x o, In (x, o) dr -> dict_get d x = Some o) -> NoDup (map fst dr) ->
    holds_members w (below b) dr es -> (forall xk, In xk es -> depth (snd xk) <= f) ->
    w_map w c = Some dc -> (forall x, In x (map fst dr) -> dict_get dc x = None) ->
    if existsb (fun xk => crashes X (snd xk)) es
    then clone_keys (clone f X) X m c (map fst dr) h = Panic
    else exists h' w', live X h' w' /\ but c w w'
      /\ clone_keys (clone f X) X m c (map fst dr) h = Ok (flat_map (fun xk => rejects X (snd xk)) es, h')
      /\ (flat_map (fun xk => rejects X (snd xk)) es = [] ->
          exists dr', w_map w' c = Some (dc ++ dr')
            /\ made_members w' (w_next w) (w_next w') dr' (copy_members es)).
  Proof.
    intros RO Lm Lc. induction dr as [|[x o] dr IH]; intros es h w dc L Lb Lcw Hm Hd ND H D Hc Nx.
    - inversion H; subst. cbn. exists h, w. split; auto. split; [split; auto|]. split; auto.
      intros _. exists []. rewrite app_nil_r. split; auto. constructor.
    - inversion H as [|? ? k ? ks Hv Hr]; subst. cbn [map fst existsb snd flat_map clone_keys].
      cbn in ND. inversion ND as [|? ? Nin ND']; subst.
      assert (K : round w c k (clone_key (clone f X) X m c x h) (has_member c dc x k w) (fun w' => w_map w' c = Some dc)).
      { apply (key_ok f h w m d c dc x o k); auto.
        - apply (D (x, k)). now left.
        - apply Hd. now left.
        - eapply (proj1 (proj2 (holds_frame_all w w _ _ (below_le w b (w_next w) Lb)))); eauto.
        - apply Nx. now left. }
      unfold round in K. destruct (crashes X k) eqn:Ck; cbn [orb].
      { unfold bind. now rewrite K. }
      destruct K as (h1 & w1 & L1 & U1 & R1 & Ok1 & Keep1).
      assert (F1 : keeps_on w w1 (below b) (below b)) by (apply (holds_but b c); auto).
      assert (Hm1 : w_map w1 m = Some d).
      { destruct U1 as [_ U1]. destruct (U1 m) as (E & _); [lia|lia|]. congruence. }
      pose proof (bu_next _ _ _ U1) as N1.
      assert (C1 : exists dc1, w_map w1 c = Some dc1 /\ (forall y, In y (map fst dr) -> dict_get dc1 y = None)
                 /\ (rejects X k = [] -> exists o', dc1 = dc ++ [(x, o')] /\ made_value w1 (w_next w) (w_next w1) o' (copy X k))).
      { destruct (rejects X k) as [|e er] eqn:Er.
        - destruct (Ok1 eq_refl) as (o' & E' & M'). exists (dc ++ [(x, o')]). split; auto. split; [|eauto].
          intros y Hy. assert (x <> y) by (intros ->; contradiction).
          assert (Ny : dict_get dc y = None) by (apply Nx; now right).
          assert (Nx0 : dict_get dc x = None) by (apply Nx; now left).
          rewrite <- (dict_set_notin dc x o' Nx0), dict_get_set. destruct (str_eqb_spec x y); [contradiction|auto].
        - exists dc. split; [apply Keep1; discriminate|]. split; [|discriminate]. intros y Hy. apply Nx. now right. }
      destruct C1 as (dc1 & Hc1 & Nx1 & M1).
      specialize (IH ks h1 w1 dc1 L1 ltac:(lia) ltac:(lia) Hm1 (fun y o' Hy => Hd y o' (or_intror Hy)) ND').
      specialize (IH (proj2 (proj2 (proj2 (holds_frame_all _ _ _ _ F1))) _ _ Hr) (fun xk Hk => D xk (or_intror Hk)) Hc1 Nx1).
      destruct (existsb (fun xk => crashes X (snd xk)) ks) eqn:Ce.
      { rewrite (bind_ok _ _ _ _ _ R1). unfold bind. now rewrite IH. }
      destruct IH as (h2 & w2 & L2 & U2 & R2 & M2). exists h2, w2. split; auto.
      split; [eapply but_trans; eauto|]. rewrite (bind_ok _ _ _ _ _ R1), (bind_ok _ _ _ _ _ R2).
      split; auto. intros E. apply app_eq_nil in E as [E1 E2].
      destruct (M1 E1) as (o' & -> & Mo), (M2 E2) as (dr' & Hc2 & Mr).
      exists ((x, o') :: dr'). rewrite <- app_assoc in Hc2. split; auto.
      pose proof (bu_next _ _ _ U2) as N2.
      apply mm_cons with (mid := w_next w1); [|lia|exact Mr].
      eapply (proj1 (proj2 (made_frame w1 w2))); [exact Mo|lia|lia|].
      intros l Hl. destruct U2 as [_ U2]. apply U2; lia.
  Qed.

  Lemma elems_ok f b c : rec_ok f -> b <= c -> forall lr ks h w lc,
    live X h w -> b <= w_next w -> c < w_next w ->
    holds_elems w (below b) lr ks -> (forall k, In k ks -> depth k <= f) ->
    w_arr w c = Some lc ->
    if existsb (fun k => is_none k || crashes X k) ks
    then clone_elems (clone f X) X c lr h = Panic
    else exists h' w', live X h' w' /\ but c w w'
      /\ clone_elems (clone f X) X c lr h = Ok (flat_map (rejects X) ks, h')
      /\ (flat_map (rejects X) ks = [] ->
          exists lr', w_arr w' c = Some (lc ++ lr')
            /\ made_elems w' (w_next w) (w_next w') lr' (map (copy X) ks)).
  Proof.
    intros RO Lc. induction lr as [|o lr IH]; intros ks h w lc L Lb Lcw H D Hc.
    - inversion H; subst. cbn. exists h, w. split; auto. split; [split; auto|]. split; auto.
      intros _. exists []. rewrite app_nil_r. split; auto. constructor.
    - inversion H as [|? k ? ks' Hv Hr]; subst. cbn [map existsb flat_map clone_elems].
      destruct (is_none k) eqn:Nk.
      { destruct k; try discriminate. inversion Hv as [|? i ? ? ? Hi]; subst; [reflexivity|].
        inversion Hi. }
      assert (K : round w c k (clone_elem (clone f X) X c o h) (has_elem c lc k w) (fun w' => w_arr w' c = Some lc)).
      { apply (elem_ok f h w c lc o k); auto.
        - apply D. now left.
        - eapply (proj1 (proj2 (holds_frame_all w w _ _ (below_le w b (w_next w) Lb)))); eauto. }
      unfold round in K. destruct (crashes X k) eqn:Ck; cbn [orb].
      { unfold bind. now rewrite K. }
      destruct K as (h1 & w1 & L1 & U1 & R1 & Ok1 & Keep1).
      assert (F1 : keeps_on w w1 (below b) (below b)) by (apply (holds_but b c); auto).
      pose proof (bu_next _ _ _ U1) as N1.
      assert (C1 : exists lc1, w_arr w1 c = Some lc1
                 /\ (rejects X k = [] -> exists o', lc1 = lc ++ [o'] /\ made_value w1 (w_next w) (w_next w1) o' (copy X k))).
      { destruct (rejects X k) as [|e er] eqn:Er.
        - destruct (Ok1 eq_refl) as (o' & E' & M'). exists (lc ++ [o']). split; auto. eauto.
        - exists lc. split; [apply Keep1; discriminate|discriminate]. }
      destruct C1 as (lc1 & Hc1 & M1).
      specialize (IH ks' h1 w1 lc1 L1 ltac:(lia) ltac:(lia)).
      specialize (IH (proj1 (proj2 (proj2 (holds_frame_all _ _ _ _ F1))) _ _ Hr) (fun k' Hk => D k' (or_intror Hk)) Hc1).
      destruct (existsb (fun k => is_none k || crashes X k) ks') eqn:Ce.
      { rewrite (bind_ok _ _ _ _ _ R1). unfold bind. now rewrite IH. }
      destruct IH as (h2 & w2 & L2 & U2 & R2 & M2). exists h2, w2. split; auto.
      split; [eapply but_trans; eauto|]. rewrite (bind_ok _ _ _ _ _ R1), (bind_ok _ _ _ _ _ R2).
      split; auto. intros E. apply app_eq_nil in E as [E1 E2].
      destruct (M1 E1) as (o' & -> & Mo), (M2 E2) as (lr' & Hc2 & Mr).
      exists (o' :: lr'). rewrite <- app_assoc in Hc2. split; auto.
      pose proof (bu_next _ _ _ U2) as N2.
      apply me_cons with (mid := w_next w1); [|lia|exact Mr].
      eapply (proj1 (proj2 (made_frame w1 w2))); [exact Mo|lia|lia|].
      intros l Hl. destruct U2 as [_ U2]. apply U2; lia.
  Qed.

  Lemma max_le l n : list_max l <= n -> forall x, In x l -> x <= n.
  Proof. intros H x Hx. apply list_max_le in H. rewrite Forall_forall in H. auto. Qed.

  Lemma dict_in_get {V} (d : dict V) x o : dict_ok d -> In (x, o) d -> dict_get d x = Some o.
  Proof.
    unfold dict_ok. induction d as [|[y v] d IH]; cbn; intros ND Hi; [contradiction|]. destruct Hi as [E|H].
    - inversion E; subst. destruct (str_eqb_spec x x); congruence.
    - inversion ND as [|? ? Nin ND']; subst. destruct (str_eqb_spec y x); auto. subst. exfalso. apply Nin.
      change x with (fst (x, o)). now apply in_map.
  Qed.

  Lemma clone_ok f : rec_ok f.
  Proof.
    induction f as [|f RO]; [split; intros; try lia; cbn in *; lia|]. split.
    - intros h w m d es L D Hm H. pose proof (live_bounded _ _ _ L) as B.
      destruct (run_new_map X h w L) as (h1 & E1 & L1). pose proof (grows_newmap w B) as G1.
      assert (Lm : m < w_next w) by (destruct B as (_ & _ & Bm & _); eauto).
      cbn [clone]. unfold clone_map_body. rewrite (bind_ok _ _ _ _ _ E1).
      assert (Hm1 : w_map (w_newmap w) m = Some d) by (cbn; rewrite put_other; [auto|lia]).
      assert (Od : dict_ok d).
      { apply (im_map _ _ (proj2 L1)) in Hm1. eapply map_dict_ok; eauto. }
      assert (Hm' := Hm1). apply (im_map _ _ (proj2 L1)) in Hm' as (mo & Nm & Ek & _).
      rewrite (lift_ok _ _ h1 (map fst d)) by (unfold map_GetKeys; apply rd_map_iff in Nm; rewrite Nm; cbn; now rewrite Ek).
      assert (K := keys_ok f (w_next w) m d (S (w_next w)) RO Lm (Nat.le_succ_diag_r _) d es h1 (w_newmap w) [] L1).
      cbn [w_next w_newmap w_map] in K. rewrite put_same in K.
      specialize (K ltac:(lia) ltac:(lia)). cbn in Hm1. specialize (K Hm1 (fun x o Hi => dict_in_get _ _ _ Od Hi) Od).
      specialize (K (proj2 (proj2 (proj2 (holds_frame_all _ _ _ _ (same_below_keeps _ _ _ (gr_same _ _ G1))))) _ _ H)).
      cbn [depth] in D. pose proof (max_le _ _ (le_S_n _ _ D)) as Dm.
      specialize (K (fun xk Hi => Dm _ (in_map _ _ _ Hi)) eq_refl (fun _ _ => eq_refl)).
      unfold outcome. cbn [crashes rejects].
      destruct (existsb (fun xk => crashes X (snd xk)) es).
      { unfold bind. now rewrite K. }
      destruct K as (h2 & w2 & L2 & U2 & R2 & M2). exists h2, w2. split; auto.
      pose proof (bu_next _ _ _ U2) as N2. cbn in N2. split.
      { split; [cbn in N2; lia|]. eapply same_trans; [exact (gr_same _ _ G1)|].
        apply (but_same (w_next w) (S (w_next w))); auto; cbn; lia. }
      rewrite (bind_ok _ _ _ _ _ R2).
      destruct (flat_map (fun xk => rejects X (snd xk)) es) as [|e er]; [|reflexivity].
      exists (S (w_next w)). split; [reflexivity|]. destruct (M2 eq_refl) as (dr' & Hc & Mr).
      cbn [copy]. apply md_map with (d := dr'); auto; lia.
    - intros h w a l ks L D Ha H. pose proof (live_bounded _ _ _ L) as B.
      destruct (run_new_array X h w L) as (h1 & E1 & L1). pose proof (grows_newarr w B) as G1.
      assert (La : a < w_next w) by (destruct B as (_ & _ & _ & Ba); eauto).
      cbn [clone]. unfold clone_arr_body. rewrite (bind_ok _ _ _ _ _ E1).
      assert (Ha1 : w_arr (w_newarr w) a = Some l) by (cbn; rewrite put_other; [auto|lia]).
      assert (Ha' := Ha1). apply (im_arr _ _ (proj2 L1)) in Ha' as (Na & _).
      rewrite (lift_ok _ _ h1 l) by (unfold arr_GetValues; now apply rd_arr_iff in Na).
      assert (K := elems_ok f (w_next w) (w_next w) RO (le_n _) l ks h1 (w_newarr w) [] L1).
      cbn [w_next w_newarr w_arr] in K. rewrite put_same in K.
      specialize (K ltac:(lia) ltac:(lia)).
      specialize (K (proj1 (proj2 (proj2 (holds_frame_all _ _ _ _ (same_below_keeps _ _ _ (gr_same _ _ G1))))) _ _ H)).
      cbn [depth] in D. pose proof (max_le _ _ (le_S_n _ _ D)) as Dm.
      specialize (K (fun k Hi => Dm _ (in_map _ _ _ Hi)) eq_refl).
      unfold outcome. cbn [crashes rejects].
      destruct (existsb (fun k => is_none k || crashes X k) ks).
      { unfold bind. now rewrite K. }
      destruct K as (h2 & w2 & L2 & U2 & R2 & M2). exists h2, w2. split; auto.
      pose proof (bu_next _ _ _ U2) as N2. cbn in N2. split.
      { split; [cbn in N2; lia|]. eapply same_trans; [exact (gr_same _ _ G1)|].
        apply (but_same (w_next w) (w_next w)); auto; cbn; lia. }
      rewrite (bind_ok _ _ _ _ _ R2).
      destruct (flat_map (rejects X) ks) as [|e er]; [|reflexivity].
      exists (w_next w). split; [reflexivity|]. destruct (M2 eq_refl) as (lr' & Hc & Mr).
      cbn [copy]. apply md_arr with (l := lr'); auto; lia.
    - intros h w v i k L _ Hv C H. eapply leaf_ok; eauto.
  Qed.
End Run.
