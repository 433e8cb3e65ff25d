(** * GetArrayOfT on arrays of JSON content *)
From Coq Require Import Ascii String List NArith ZArith Bool Lia.
From Verif Require Import GoStr StrLemmas GoNum GoFloat Heap Common ValueModel ArrayModel MapModel
  GetterModel SpecDict DictLemmas SpecWorld SpecNum SpecArray NumLemmas Inv World Reach MapFacts GetterFacts
  GetterFrame GetterLift GetterMore ArrayFacts ArrayGet.
Import ListNotations.
Local Open Scope Z_scope.

Lemma required_to_value {A} (p : gres (option A)) : required p (to_value p).
Proof. destruct p as [[x|]|e]; cbn; eauto. Qed.

Section V.
  Context (X : ext) (h : heap) (v : nat) (i : iface).
  Hypothesis R : reachable X h.
  Hypothesis Hv : w_val (view h) v = Some i.
  Let I := reachable_Inv _ _ R.
  Let Cv : nth_error h v = Some (CVal i) := val_cell _ _ _ I Hv.

  Lemma container_is c : scalar_of (view h) i = None -> cat_of (view h) i = Some c ->
    iface_IsNil X i = false /\ deref h i = Ok None
    /\ ((exists z, i = IMap z \/ i = IPMap (Some z)) \/ (exists z, i = IArr z \/ i = IPArr (Some z))).
  Proof.
    clear Cv. unfold cat_of. intros ->. 
    destruct i as [| |? [|]|z|[z|]|z|[z|]|?|[|]| | |[?|]|[?|]| |[?|]| | |[?|]|[?|]|? [?|]]; intros H; try discriminate H; repeat split; eauto.
  Qed.

  Lemma bool_elem :
    nil_object i = true \/ cat_of (view h) i <> None ->
    exists p r, value_GetBool_content X h v = Ok p /\ value_GetBoolValue X h v = Ok r
      /\ elem_as (view h) never reads_bool (Some v) p /\ required p r.
  Proof.
    intros C. destruct (nil_object i) eqn:N.
    { destruct (nil_elem X h v i R Hv N) as (_ & _ & -> & (e & ->) & _).
      exists (GVal None), (GErr [e]). repeat split; eauto; [now apply Elem_null with i|]. cbn. eauto. }
    destruct C as [C|C]; [discriminate|].
    destruct (scalar_of (view h) i) as [s|] eqn:Es.
    - assert (O : ok_iface h i) by (eapply inv_val; eauto).
      destruct (deref_scalar h i s O Es) as [_ D].
      rewrite (get_bool X h v i s Cv D), (get_boolvalue X h v i s Cv D). eexists _, _.
      split; [reflexivity|]. split; [reflexivity|].
      assert (F : (forall b, ~ reads_bool s b) -> elem_as (view h) never reads_bool (Some v) (GErr [EType])
                 /\ elem_as (view h) never reads_bool (Some v) (GErr [EBoolText])).
      { intros Nb. split; (apply Elem_fails with i; auto; rewrite Es; intros s' [= <-]; split; [intros []|auto]). }
      destruct s as [t|b|k z|w f].
      + destruct (bool_of_text t) as [b|] eqn:Eb.
        * split; [|reflexivity]. eapply Elem_reads; eauto. cbn. now apply bool_of_text_iff in Eb.
        * split; [|reflexivity]. apply F. intros b Hb. cbn in Hb. apply bool_of_text_iff in Hb. congruence.
      + split; [|reflexivity]. eapply Elem_reads; eauto. reflexivity.
      + split; [|reflexivity]. apply F. cbn. auto.
      + split; [|reflexivity]. apply F. cbn. auto.
    - destruct (cat_of (view h) i) as [c|] eqn:Ec; [|congruence].
      destruct (container_is c Es Ec) as (Nn & De & K).
      exists (GErr [EType]), (GErr [EType]). split; [|split; [|split; [|reflexivity]]].
      + unfold value_GetBool_content, value_GetBool. rewrite (proj2 (rd_val_iff _ _ _) Cv). cbn [rbind]. rewrite Nn.
        destruct K as [(z & [->| ->])|(z & [->| ->])]; reflexivity.
      + unfold value_GetBoolValue. rewrite (proj2 (rd_val_iff _ _ _) Cv). cbn [rbind]. rewrite Nn, De. reflexivity.
      + apply Elem_fails with i; auto; [rewrite Ec; discriminate|]. rewrite Es. discriminate.
  Qed.

  Lemma text_elem_get :
    (nil_object i = true \/ exists t, scalar_of (view h) i = Some (SStr t)) ->
    exists p r, value_GetString_content X h v = Ok p /\ value_GetStringValue X h v = Ok r
      /\ elem_as (view h) never reads_str (Some v) p /\ required p r /\ exists x, p = GVal x.
  Proof.
    intros C. destruct (nil_object i) eqn:N.
    { destruct (nil_elem X h v i R Hv N) as (_ & _ & _ & _ & -> & (e & ->)).
      exists (GVal None), (GErr [e]). repeat split; eauto; [now apply Elem_null with i|]. cbn. eauto. }
    destruct C as [C|[t Es]]; [discriminate|].
    assert (O : ok_iface h i) by (eapply inv_val; eauto).
    destruct (deref_scalar h i _ O Es) as [_ D].
    rewrite (get_string X h v i _ Cv D t eq_refl), (get_stringvalue X h v i _ Cv D t eq_refl).
    exists (GVal (Some t)), (GVal t). repeat split; eauto. eapply Elem_reads; eauto. reflexivity.
  Qed.

  Lemma text_elem_panics c : cat_of (view h) i = Some c -> c <> CatStr ->
    value_GetString_content X h v = Panic /\ value_GetStringValue X h v = Panic.
  Proof.
    intros Ec Nc.
    assert (N : nil_object i = false).
    { clear Cv. revert Ec. unfold cat_of. destruct i as [| |? [|]|?|[|]|?|[|]|?|[|]| | |[?|]|[?|]| |[?|]| | |[?|]|[?|]|? [?|]]; cbn; congruence. }
    destruct (via_map X h v i R Hv N) as (h' & m & R' & Hm & O & E & _ & _ & _ & G1 & G2).
    assert (Ec' : cat_of (view h') i = Some c) by (rewrite <- Ec; now apply agree_scalar_cat).
    rewrite <- G1, <- G2.
    destruct (mismatch X h' m [] i c R' Hm O Ec') as (_ & _ & _ & _ & _ & M). auto.
  Qed.
End V.

(** From elements to arrays. *)
Lemma elems_exist {A B C} (P : A -> B -> Prop) (Q : A -> C -> Prop) (S : B -> C -> Prop) (l : list A) :
  (forall o, In o l -> exists p r, P o p /\ Q o r /\ S p r) ->
  exists ps rs, Forall2 P l ps /\ Forall2 Q l rs /\ Forall2 S ps rs.
Proof.
  induction l as [|o l IH]; intros H; [exists [], []; repeat split; constructor|].
  destruct (H o (or_introl eq_refl)) as (p & r & H1 & H2 & H3).
  destruct IH as (ps & rs & F1 & F2 & F3); [intros; apply H; now right|]. exists (p :: ps), (r :: rs).
  repeat split; constructor; auto.
Qed.

Lemma Forall2_impl {A B} (P Q : A -> B -> Prop) l r :
  (forall x y, P x y -> Q x y) -> Forall2 P l r -> Forall2 Q l r.
Proof. intros H. induction 1; constructor; auto. Qed.

Lemma int_arrays X h a l k :
  reachable X h -> w_arr (view h) a = Some l -> k <> KInt -> k <> KUInt ->
  Forall (plain (view h)) l ->
  (forall o k0 z, In o l -> elem_scalar (view h) o = Some (SInt k0 z) ->
     fits (x_is64 X) k0 z /\ (is_signed k -> k0 = KUInt -> z <= 2 ^ 63 - 1)) ->
  exists ps rs r r', Forall2 (elem_as (view h) (null_int k) (reads_int (x_is64 X) k)) l ps
    /\ Forall2 required ps rs
    /\ arr_GetArrayOfIntKind k X h a = Ok r /\ collected ps r
    /\ arr_GetArrayOfIntKindValue k X h a = Ok r' /\ collected rs r'.
Proof.
  intros R Ha N1 N2 Pl F. rewrite Forall_forall in Pl.
  assert (E : forall o, In o l -> exists p r,
     (own (value_GetIntKind k X h) o p /\ elem_as (view h) (null_int k) (reads_int (x_is64 X) k) o p)
     /\ own_value (value_GetIntKindValue k X h) o r /\ required p r).
  { intros [v|] Ho.
    - destruct (Pl _ Ho) as (i & Hi & C).
      destruct (int_elem X h v i R Hi k N2 C) as (p & Hp & Ep).
      { intros k0 z Es. apply (F (Some v)); auto. unfold elem_scalar. now rewrite Hi. }
      exists p, (to_value p). repeat split; auto; [|apply required_to_value].
      cbn. unfold value_GetIntKindValue. now rewrite Hp.
    - exists (GVal None), (GErr [ENullElem]). repeat split; auto; [constructor|]. cbn. eauto. }
  apply elems_exist in E as (ps & rs & G1 & G2 & G3).
  destruct (array_pointwise X h a l R Ha) as (T1 & T2 & _).
  assert (O1 : Forall2 (own (value_GetIntKind k X h)) l ps) by (eapply Forall2_impl; [|exact G1]; cbn; tauto).
  destruct (T1 k ps N1 N2 O1) as (r & Er & Cr). destruct (T2 k rs N1 N2 G2) as (r' & Er' & Cr').
  exists ps, rs, r, r'. repeat split; auto. eapply Forall2_impl; [|exact G1]. cbn. tauto.
Qed.

Lemma bool_arrays X h a l :
  reachable X h -> w_arr (view h) a = Some l -> Forall (plain (view h)) l ->
  exists ps rs r r', Forall2 (elem_as (view h) never reads_bool) l ps /\ Forall2 required ps rs
    /\ arr_GetArrayOfBool X h a = Ok r /\ collected ps r
    /\ arr_GetArrayOfBoolValue X h a = Ok r' /\ collected rs r'.
Proof.
  intros R Ha Pl. rewrite Forall_forall in Pl.
  assert (E : forall o, In o l -> exists p r,
     (own (value_GetBool_content X h) o p /\ elem_as (view h) never reads_bool o p)
     /\ own_value (value_GetBoolValue X h) o r /\ required p r).
  { intros [v|] Ho.
    - destruct (Pl _ Ho) as (i & Hi & C).
      destruct (bool_elem X h v i R Hi C) as (p & r & Hp & Hr & Ep & Rq). exists p, r. auto.
    - exists (GVal None), (GErr [ENullElem]). repeat split; auto; [constructor|]. cbn. eauto. }
  apply elems_exist in E as (ps & rs & G1 & G2 & G3).
  destruct (array_pointwise X h a l R Ha) as (_ & _ & _ & _ & _ & _ & T1 & T2 & _).
  assert (O1 : Forall2 (own (value_GetBool_content X h)) l ps) by (eapply Forall2_impl; [|exact G1]; cbn; tauto).
  destruct (T1 ps O1) as (r & Er & Cr). destruct (T2 rs G2) as (r' & Er' & Cr').
  exists ps, rs, r, r'. repeat split; auto. eapply Forall2_impl; [|exact G1]. cbn. tauto.
Qed.

Lemma text_arrays X h a l :
  reachable X h -> w_arr (view h) a = Some l -> Forall (text_elem (view h)) l ->
  exists xs rs r', Forall2 (elem_as (view h) never reads_str) l (map GVal xs) /\ Forall2 required (map GVal xs) rs
    /\ arr_GetArrayOfString X h a = Ok (GVal xs)
    /\ arr_GetArrayOfStringValue X h a = Ok r' /\ collected rs r'.
Proof.
  intros R Ha Pl. rewrite Forall_forall in Pl.
  assert (E : forall o, In o l -> exists p r,
     (own (value_GetString_content X h) o p /\ elem_as (view h) never reads_str o p /\ exists x, p = GVal x)
     /\ own_value (value_GetStringValue X h) o r /\ required p r).
  { intros [v|] Ho.
    - destruct (Pl _ Ho) as (i & Hi & C).
      destruct (text_elem_get X h v i R Hi C) as (p & r & Hp & Hr & Ep & Rq & V). exists p, r. auto.
    - exists (GVal None), (GErr [ENullElem]). repeat split; eauto; [constructor|]. cbn. eauto. }
  apply elems_exist in E as (ps & rs & G1 & G2 & G3).
  destruct (array_pointwise X h a l R Ha) as (_ & _ & _ & _ & _ & _ & _ & _ & T1 & T2).
  assert (O1 : Forall2 (own (value_GetString_content X h)) l ps) by (eapply Forall2_impl; [|exact G1]; cbn; tauto).
  destruct (T1 ps O1) as (r & Er & Cr). destruct (T2 rs G2) as (r' & Er' & Cr').
  assert (V : exists xs, ps = map GVal xs).
  { clear - G1. induction G1 as [|o p l ps (_ & _ & [x ->]) _ [xs ->]]; [now exists []|]. now exists (x :: xs). }
  destruct V as [xs ->]. exists xs, rs, r'. split; [|split; [auto|split; [|auto]]].
  - eapply Forall2_impl; [|exact G1]. cbn. tauto.
  - rewrite Er. destruct Cr as [(ys & Ey & ->)|([e He] & _)].
    + f_equal. f_equal. clear - Ey. revert ys Ey. induction xs; destruct ys; cbn; intros [= ]; f_equal; auto.
    + apply in_map_iff in He as (x & Hx & _). discriminate.
Qed.

Lemma collect_ptr_panics {A} (get : nat -> res (gres (option A))) l v :
  In (Some v) l -> get v = Panic -> (forall u, In (Some u) l -> get u = Panic \/ exists r, get u = Ok r) ->
  collect_ptr get l = Panic.
Proof.
  induction l as [|o l IH]; intros Hv Pv T; [destruct Hv|]. cbn [collect_ptr].
  destruct Hv as [->|Hv].
  - now rewrite Pv.
  - assert (E : collect_ptr get l = Panic) by (apply IH; auto; intros; apply T; now right).
    destruct o as [u|]; [destruct (T u (or_introl eq_refl)) as [->|[r ->]]; auto; cbn [rbind]|]; now rewrite E.
Qed.
Lemma collect_val_panics {A} (get : nat -> res (gres A)) l v :
  In (Some v) l -> get v = Panic -> (forall u, In (Some u) l -> get u = Panic \/ exists r, get u = Ok r) ->
  collect_val get l = Panic.
Proof.
  induction l as [|o l IH]; intros Hv Pv T; [destruct Hv|]. cbn [collect_val].
  destruct Hv as [->|Hv].
  - now rewrite Pv.
  - assert (E : collect_val get l = Panic) by (apply IH; auto; intros; apply T; now right).
    destruct o as [u|]; [destruct (T u (or_introl eq_refl)) as [->|[r ->]]; auto; cbn [rbind]|]; now rewrite E.
Qed.

Lemma text_arrays_panic X h a l v :
  reachable X h -> w_arr (view h) a = Some l -> Forall (plain (view h)) l ->
  In (Some v) l -> ~ text_elem (view h) (Some v) ->
  arr_GetArrayOfString X h a = Panic /\ arr_GetArrayOfStringValue X h a = Panic.
Proof.
  intros R Ha Pl Hv Nt. pose proof (reachable_Inv _ _ R) as I. rewrite Forall_forall in Pl.
  assert (T : forall u, In (Some u) l ->
     (text_elem (view h) (Some u) /\ (exists r, value_GetString_content X h u = Ok r)
        /\ (exists r, value_GetStringValue X h u = Ok r))
     \/ (value_GetString_content X h u = Panic /\ value_GetStringValue X h u = Panic)).
  { intros u Hu. destruct (Pl _ Hu) as (i & Hi & C).
    assert (D : (nil_object i = true \/ exists t, scalar_of (view h) i = Some (SStr t))
                \/ exists c, cat_of (view h) i = Some c /\ c <> CatStr).
    { destruct C as [C|C]; [auto|]. destruct (cat_of (view h) i) as [c|] eqn:Ec; [|congruence].
      destruct (scalar_of (view h) i) as [s|] eqn:Es.
      - rewrite (cat_scalar _ _ _ Es) in Ec. injection Ec as <-.
        destruct s; eauto; right; eexists; (split; [reflexivity|discriminate]).
      - destruct (cat_container _ _ _ Es Ec); right; exists c; split; congruence. }
    destruct D as [D|(c & Ec & Nc)].
    - left. destruct (text_elem_get X h u i R Hi D) as (p & r & Hp & Hr & _). repeat split; eauto. exists i. auto.
    - right. eapply text_elem_panics; eauto. }
  destruct (T v Hv) as [[Q _]|[P1 P2]]; [contradiction|].
  unfold arr_GetArrayOfString, arr_GetArrayOfStringValue, arr_collect_ptr, arr_collect_val.
  rewrite (proj2 (rd_arr_iff _ _ _) (arr_cell _ _ _ I Ha)). cbn [rbind].
  rewrite (collect_ptr_panics _ l v), (collect_val_panics _ l v); auto;
    intros u Hu; destruct (T u Hu) as [(_ & Q1 & Q2)|[Q1 Q2]]; auto.
Qed.

(** Map.GetArrayOfT. *)
Lemma map_arrays X h m k :
  reachable X h -> has (w_map (view h)) m ->
  (absent (view h) m k = true -> forall A (get : heap -> nat -> res (gres (list A))),
     map_array_of get X h m k = Ok (GVal None) /\ exists e, map_array_of_value get X h m k = Ok (GErr [e]))
  /\ (forall a, object_at (view h) m k = Some (IArr a) \/ object_at (view h) m k = Some (IPArr (Some a)) ->
      forall A (get : heap -> nat -> res (gres (list A))) r, get h a = Ok r ->
      map_array_of get X h m k = Ok (match r with GVal l => GVal (Some l) | GErr e => GErr e end)
      /\ map_array_of_value get X h m k = Ok r)
  /\ (forall i c, object_at (view h) m k = Some i -> cat_of (view h) i = Some c -> c <> CatArr ->
      forall A (get : heap -> nat -> res (gres (list A))), exists e,
        map_array_of get X h m k = Ok (GErr [e]) /\ map_array_of_value get X h m k = Ok (GErr [e])).
Proof.
  intros R Hm. split; [|split].
  - intros Ab A get. destruct (absent_getters X h m k R Hm) as [_ G].
    destruct (G Ab) as (_ & _ & _ & _ & _ & _ & _ & _ & _ & _ & _ & _ & _ & _ & _ & G1 & (e & G2) & _).
    unfold map_array_of, map_array_of_value. rewrite G1, G2. cbn [rbind]. eauto.
  - intros a O A get r Er.
    assert (Oi : exists i, object_at (view h) m k = Some i /\ nil_object i = false /\ value_GetArray X h = value_GetArray X h
               /\ (i = IArr a \/ i = IPArr (Some a))).
    { destruct O as [O|O]; eexists; split; eauto. }
    destruct Oi as (i & Oi & N & _ & Ei).
    destruct (map_via_present h (reachable_Inv _ _ R) m k i Hm Oi N) as (v & Hv & _ & _ & Vi).
    assert (G : map_GetArray X h m k = Ok (GVal (Some a))).
    { unfold map_GetArray. rewrite Vi. unfold value_GetArray. rewrite (proj2 (rd_val_iff _ _ _) Hv). cbn [rbind].
      destruct Ei as [->| ->]; reflexivity. }
    unfold map_array_of, map_array_of_value, map_GetArrayValue. rewrite G. cbn [rbind to_value]. rewrite Er. auto.
  - intros i c O Ec Nc A get. destruct (mismatch X h m k i c R Hm O Ec) as (_ & _ & _ & _ & M & _).
    destruct (M Nc) as (e & M1 & M2). exists e. unfold map_array_of, map_array_of_value. rewrite M1, M2. auto.
Qed.
