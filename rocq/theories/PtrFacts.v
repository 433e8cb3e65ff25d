(** * What the pointers returned by getters refer to *)
From Coq Require Import Ascii String List NArith ZArith Bool Lia.
From Verif Require Import GoStr StrLemmas GoNum GoFloat Heap Common ValueModel ArrayModel MapModel GetterModel PtrModel
  SpecDict DictLemmas SpecWorld SpecNum Inv World Reach MapFacts GetterFacts GetterFrame GetterLift GetterMore ObjFacts
  JsonModel ParserModel SpecFloat SpecDoc SpecText SpecToken SpecParse SpecPtr.
Import ListNotations.

Section S.
  Context (X : ext).

  Lemma in_new_cases {A} (mk : A -> scalar) r h x h1 : in_new mk r h = Ok (x, h1) ->
    (exists a, r = Ok (GVal (Some a)) /\ x = GVal (Some (length h)) /\ h1 = h ++ [CPtr (mk a)])
    \/ (h1 = h /\ r = Ok (GVal None) /\ x = GVal None) \/ (h1 = h /\ exists e, r = Ok (GErr e) /\ x = GErr e).
  Proof.
    unfold in_new. destruct r as [[[a|]|e]| | |]; cbn; try discriminate; intros [= <- <-]; eauto 8.
  Qed.

  Lemma value_ptr_cases t h v i p h1 : Inv h -> nth_error h v = Some (CVal i) ->
    value_ptr t X v h = Ok (GVal (Some p), h1) ->
    (h1 = h /\ i = IPtr t (Some p) /\ (t = TyStr \/ t = TyBool))
    \/ (p = length h /\ (exists s, h1 = h ++ [CPtr s] /\ stype_of s = t) /\ ~ ((t = TyStr \/ t = TyBool) /\ exists q, i = IPtr t (Some q))).
  Proof.
    intros I Hv. destruct t as [| |kd|[|]]; cbn [value_ptr].
    - unfold value_GetString. rewrite (proj2 (rd_val_iff _ _ _) Hv). cbn [rbind].
      destruct (iface_IsNil X i); [discriminate|].
      destruct i as [|[]|[] [q|]| | | | | | | | | | | | | | | | |]; cbn; try discriminate; intros [= <- <-]; eauto.
      right. split; auto. split; eauto. intros [_ (q & E)]. discriminate.
    - unfold value_GetBool. rewrite (proj2 (rd_val_iff _ _ _) Hv). cbn [rbind].
      destruct (iface_IsNil X i); [discriminate|].
      destruct i as [|[]|[] [q|]| | | | | | | | | | | | | | | | |]; cbn -[deref]; try discriminate.
      2: { intros [= <- <-]. right. split; auto. split; eauto. intros [_ (q & E)]. discriminate. }
      3: { intros [= <- <-]. auto. }
      all: destruct (deref h _) as [[[]|]| | |]; cbn; try discriminate; destruct (bool_of_text _); cbn; try discriminate;
        intros [= <- <-]; right; (split; [reflexivity|]); split; eauto; intros [_ (q' & E)]; discriminate.
    - intros H. apply in_new_cases in H as [(a & _ & [= ->] & ->)|[(_ & _ & ?)|(_ & e & _ & ?)]]; try discriminate.
      right. split; auto. split; eauto. intros [[?|?] _]; discriminate.
    - intros H. apply in_new_cases in H as [(a & _ & [= ->] & ->)|[(_ & _ & ?)|(_ & e & _ & ?)]]; try discriminate.
      right. split; auto. split; eauto. intros [[?|?] _]; discriminate.
    - intros H. apply in_new_cases in H as [(a & _ & [= ->] & ->)|[(_ & _ & ?)|(_ & e & _ & ?)]]; try discriminate.
      right. split; auto. split; eauto. intros [[?|?] _]; discriminate.
  Qed.

  (** A new variable changes nothing else. *)
  Lemma new_var_state h s : reachable X h ->
    reachable X (h ++ [CPtr s]) /\ unchanged h (h ++ [CPtr s]) /\ w_var (view (h ++ [CPtr s])) (length h) = Some s.
  Proof.
    intros R.
    assert (E : run_call (ANewVar s) h = Ok (OHandle (length h), h ++ [CPtr s])) by reflexivity.
    destruct (run_one _ _ (ANewVar s) R I) as (h' & E' & R' & P').
    rewrite E in E'. injection E' as <-.
    pose proof (reachable_Inv _ _ R') as I'. pose proof (view_impl _ I') as V'.
    destruct (impl_eq _ _ _ V' P') as (_ & Em & Ea & Ev & Eq).
    assert (N : w_next (view h) = length h) by reflexivity.
    split; auto. split.
    - intros l Hl. unfold old_in in Hl. rewrite Em, Ea, Ev, Eq. remember (view h) as w. cbn. rewrite N. unfold put.
      rewrite (proj2 (Nat.eqb_neq l (length h))) by lia. auto.
    - rewrite Eq. remember (view h) as w. cbn. rewrite N. unfold put. now rewrite Nat.eqb_refl.
  Qed.

  Lemma unchanged_refl h : unchanged h h.
  Proof. intros l _. auto. Qed.

  Lemma value_write t h v i p h1 s : reachable X h -> w_val (view h) v = Some i ->
    value_ptr t X v h = Ok (GVal (Some p), h1) -> stype_of s = t ->
    reachable X h1 /\ unchanged h h1
    /\ exists h2, run_call (AVarSet p s) h1 = Ok (ODone, h2) /\ reachable X h2
      /\ (has_pointer t i -> i = IPtr t (Some p) /\ w_val (view h2) v = Some i /\ w_var (view h2) p = Some s
            /\ (forall l, w_map (view h2) l = w_map (view h) l) /\ (forall l, w_val (view h2) l = w_val (view h) l))
      /\ (~ has_pointer t i -> new_in h p /\ unchanged h h2).
  Proof.
    intros R Hv0 H T. pose proof (reachable_Inv _ _ R) as I.
    pose proof (proj1 (im_val _ _ (view_impl _ I) _ _) Hv0) as Hv.
    assert (W : forall hh s0, reachable X hh -> w_var (view hh) p = Some s0 -> stype_of s0 = t ->
      exists h2, run_call (AVarSet p s) hh = Ok (ODone, h2) /\ reachable X h2
        /\ (forall l, w_map (view h2) l = w_map (view hh) l) /\ (forall l, w_arr (view h2) l = w_arr (view hh) l)
        /\ (forall l, w_val (view h2) l = w_val (view hh) l) /\ w_var (view h2) p = Some s
        /\ (forall l, l <> p -> w_var (view h2) l = w_var (view hh) l)).
    { intros hh s0 Rh Hp T0.
      destruct (run_one _ _ (AVarSet p s) Rh) as (h2 & E & R2 & P2); [exists s0; split; [exact Hp|congruence]|].
      pose proof (view_impl _ (reachable_Inv _ _ R2)) as V2.
      destruct (impl_eq _ _ _ V2 P2) as (_ & Em & Ea & Ev & Eq).
      exists h2. split; [exact E|]. split; auto. remember (view h2) as w2. remember (view hh) as w.
      cbn in Em, Ea, Ev, Eq. do 3 (split; [assumption|]). split.
      - rewrite Eq. unfold put. now rewrite Nat.eqb_refl.
      - intros l N. rewrite Eq. unfold put. now rewrite (proj2 (Nat.eqb_neq l p)). }
    destruct (value_ptr_cases t h v i p h1 I Hv H) as [(-> & -> & C)|(-> & (s1 & -> & T1) & N)].
    - split; auto. split; [apply unchanged_refl|].
      destruct (inv_val h I _ _ Hv) as (s0 & E0 & T0).
      assert (Hp : w_var (view h) p = Some s0) by (apply (im_var _ _ (view_impl _ I)); exact E0).
      destruct (W h s0 R Hp T0) as (h2 & E & R2 & Em & Ea & Ev & Ep & En).
      exists h2. split; auto. split; auto. split.
      + intros _. split; auto. split; [rewrite Ev; exact Hv0|]. auto.
      + intros N. exfalso. apply N. split; eauto.
    - destruct (new_var_state h s1 R) as (R1 & U1 & Hp). split; auto. split; auto.
      destruct (W _ s1 R1 Hp T1) as (h2 & E & R2 & Em & Ea & Ev & Ep & En).
      exists h2. split; auto. split; auto. split; [intros Q; contradiction|]. intros _. split; [unfold new_in; lia|].
      intros l Hl. destruct (U1 l Hl) as (A & B & C & D). unfold old_in in Hl.
      rewrite Em, Ea, Ev, (En l) by lia. auto.
  Qed.

  (** ** The value pointed to is the answer of the getter *)
  Lemma rd_ptr_app h s : rd_ptr (h ++ [CPtr s]) (length h) = Ok s.
  Proof. unfold rd_ptr. rewrite nth_error_app2, Nat.sub_diag by lia. reflexivity. Qed.

  Definition value_read (t : stype) (h : heap) (v : loc) : res answer :=
    match t with
    | TyStr => rmap AnsStrP (value_GetString_content X h v)
    | TyBool => rmap AnsBoolP (value_GetBool_content X h v)
    | TyInt k => rmap AnsIntP (value_GetIntKind k X h v)
    | TyFlt F32 => rmap AnsFltP (value_GetFloat32 X h v)
    | TyFlt F64 => rmap AnsFltP (value_GetFloat64 X h v)
    end.

  Lemma in_new_read {A} (mk : A -> scalar) (f : gres (option A) -> answer) r h p h1 :
    (forall a, f (GVal (Some a)) = answer_of (mk a)) -> in_new mk r h = Ok (GVal (Some p), h1) ->
    exists s, nth_error h1 p = Some (CPtr s) /\ rmap f r = Ok (answer_of s).
  Proof.
    intros Hf H. apply in_new_cases in H as [(a & -> & [= ->] & ->)|[(_ & _ & ?)|(_ & e & _ & ?)]]; try discriminate.
    exists (mk a). split; [rewrite nth_error_app2, Nat.sub_diag by lia; reflexivity|]. cbn. now rewrite Hf.
  Qed.

  Lemma value_points t h v p h1 : value_ptr t X v h = Ok (GVal (Some p), h1) ->
    (exists s, nth_error h1 p = Some (CPtr s) /\ stype_of s = t) ->
    exists s, nth_error h1 p = Some (CPtr s) /\ value_read t h v = Ok (answer_of s).
  Proof.
    intros H (s & Hp & T). destruct t as [| |kd|[|]]; cbn [value_ptr value_read] in *.
    - exists s. split; auto. unfold value_GetString_content. rewrite H. cbn [rbind].
      rewrite (proj2 (rd_ptr_iff _ _ _) Hp). destruct s; try discriminate. reflexivity.
    - exists s. split; auto. unfold value_GetBool_content. rewrite H. cbn [rbind].
      rewrite (proj2 (rd_ptr_iff _ _ _) Hp). destruct s; try discriminate. reflexivity.
    - apply (in_new_read (SInt kd) AnsIntP _ h); auto.
    - apply (in_new_read (SFlt F32) AnsFltP _ h); auto.
    - apply (in_new_read (SFlt F64) AnsFltP _ h); auto.
  Qed.

  Lemma in_new_back {A} (mk : A -> scalar) (f : gres (option A) -> answer) r h s :
    (forall x, f x = answer_of s -> exists a, x = GVal (Some a) /\ mk a = s) ->
    rmap f r = Ok (answer_of s) -> in_new mk r h = Ok (GVal (Some (length h)), h ++ [CPtr s]).
  Proof.
    intros Hf H. destruct r as [x| | |]; cbn in H; try discriminate. injection H as H.
    destruct (Hf _ H) as (a & -> & <-). reflexivity.
  Qed.

  Lemma value_ptr_back h v s : value_read (stype_of s) h v = Ok (answer_of s) ->
    exists p h1, value_ptr (stype_of s) X v h = Ok (GVal (Some p), h1).
  Proof.
    destruct s as [x|b|kd z|[|] f]; cbn [stype_of value_read value_ptr].
    - unfold value_GetString_content. destruct (value_GetString X v h) as [[[[p|]|e] h1]| | |]; cbn; try discriminate. eauto.
    - unfold value_GetBool_content. destruct (value_GetBool X v h) as [[[[p|]|e] h1]| | |]; cbn; try discriminate. eauto.
    - intros H. do 2 eexists. eapply (in_new_back (SInt kd) AnsIntP); [|exact H].
      intros y. cbn. intros [= ->]. eauto.
    - intros H. do 2 eexists. eapply (in_new_back (SFlt F32) AnsFltP); [|exact H].
      intros y. cbn. intros [= ->]. eauto.
    - intros H. do 2 eexists. eapply (in_new_back (SFlt F64) AnsFltP); [|exact H].
      intros y. cbn. intros [= ->]. eauto.
  Qed.

  (** ** Maps *)
  Lemma map_ptr_via t m k h : t <> TyInt KUInt ->
    map_ptr t X m k h = map_via (GVal None, h) (fun v => value_ptr t X v h) h m k.
  Proof. destruct t as [| |[]|]; try reflexivity. congruence. Qed.

  Lemma map_ptr_cases t h m k : t <> TyInt KUInt -> reachable X h -> has (w_map (view h)) m ->
    (absent (view h) m k = true /\ map_ptr t X m k h = Ok (GVal None, h)
       /\ forall s, run_getter (getter_of t) X h m k <> Ok (answer_of s))
    \/ exists v i, SpecWorld.object_at (view h) m k = Some i /\ w_val (view h) v = Some i
         /\ map_GetValue h m k = Ok (Some v)
         /\ map_ptr t X m k h = value_ptr t X v h
         /\ run_getter (getter_of t) X h m k = value_read t h v.
  Proof.
    intros NU R Hm. pose proof (reachable_Inv _ _ R) as I.
    destruct (absent (view h) m k) eqn:A.
    - left. split; auto. split; [rewrite map_ptr_via by auto; now rewrite (map_via_absent h I)|].
      intros s E. destruct t as [| |kd|[|]]; cbn [getter_of run_getter] in E;
        unfold map_GetString, map_GetBool, map_GetIntKind, map_GetFloat32, map_GetFloat64 in E;
        try (destruct kd; try congruence); rewrite (map_via_absent h I) in E by auto; destruct s as [| |[]|[]]; cbn in E; congruence.
    - right. unfold absent in A. destruct (SpecWorld.object_at (view h) m k) as [i|] eqn:O; [|discriminate].
      destruct (map_via_present h I _ _ _ Hm O A) as (v & Hv & Oi & G & Vi).
      exists v, i. split; auto. split; [apply (im_val _ _ (view_impl _ I)); exact Hv|]. split; auto.
      rewrite map_ptr_via by auto. rewrite Vi. split; auto.
      destruct t as [| |kd|[|]]; cbn [getter_of run_getter value_read];
        unfold map_GetString, map_GetBool, map_GetIntKind, map_GetFloat32, map_GetFloat64;
        try (destruct kd; try congruence); rewrite ?Vi; auto.
  Qed.

  Lemma map_points t h m k p h1 : reachable X h -> has (w_map (view h)) m ->
    map_ptr t X m k h = Ok (GVal (Some p), h1) ->
    exists s, w_var (view h1) p = Some s /\ stype_of s = t /\ run_getter (getter_of t) X h m k = Ok (answer_of s).
  Proof.
    intros R Hm H. pose proof (reachable_Inv _ _ R) as I.
    assert (NU : t <> TyInt KUInt) by (intros ->; discriminate).
    destruct (map_ptr_cases t h m k NU R Hm) as [(_ & E & _)|(v & i & O & Hv & _ & E & G)]; rewrite E in H; [discriminate|].
    pose proof (proj1 (im_val _ _ (view_impl _ I) _ _) Hv) as Hv'.
    assert (Q : exists s, nth_error h1 p = Some (CPtr s) /\ stype_of s = t).
    { destruct (value_ptr_cases t h v i p h1 I Hv' H) as [(-> & -> & C)|(-> & (s1 & -> & T1) & N)].
      - exact (inv_val h I _ _ Hv').
      - exists s1. rewrite nth_error_app2, Nat.sub_diag by lia. auto. }
    destruct (value_points t h v p h1 H Q) as (s & Hp & Hr). destruct Q as (s' & Hp' & T).
    rewrite Hp in Hp'. injection Hp' as <-. exists s. rewrite G. split; [|auto].
    destruct (value_write t h v i p h1 s R Hv H T) as (R1 & _).
    apply (im_var _ _ (view_impl _ (reachable_Inv _ _ R1))). exact Hp.
  Qed.

  Lemma map_ptr_back h m k s : reachable X h -> has (w_map (view h)) m ->
    run_getter (getter_of (stype_of s)) X h m k = Ok (answer_of s) ->
    exists p h1, map_ptr (stype_of s) X m k h = Ok (GVal (Some p), h1).
  Proof.
    intros R Hm H.
    assert (NU : stype_of s <> TyInt KUInt) by (destruct s as [| |[]|[]]; cbn in *; congruence).
    destruct (map_ptr_cases (stype_of s) h m k NU R Hm) as [(_ & _ & E)|(v & i & O & Hv & _ & E & G)]; [destruct (E _ H)|].
    rewrite E. apply value_ptr_back. congruence.
  Qed.

  Lemma map_write t h m k p h1 s : reachable X h -> has (w_map (view h)) m ->
    map_ptr t X m k h = Ok (GVal (Some p), h1) -> stype_of s = t ->
    reachable X h1 /\ unchanged h h1
    /\ exists i h2, SpecWorld.object_at (view h) m k = Some i
      /\ run_call (AVarSet p s) h1 = Ok (ODone, h2) /\ reachable X h2
      /\ (has_pointer t i -> i = IPtr t (Some p) /\ run_getter (getter_of t) X h2 m k = Ok (answer_of s))
      /\ (~ has_pointer t i -> new_in h p /\ unchanged h h2).
  Proof.
    intros R Hm H T. pose proof (reachable_Inv _ _ R) as I.
    assert (NU : t <> TyInt KUInt) by (intros ->; discriminate).
    destruct (map_ptr_cases t h m k NU R Hm) as [(_ & E & _)|(v & i & O & Hv & _ & E & G)]; rewrite E in H; [discriminate|].
    destruct (value_write t h v i p h1 s R Hv H T) as (R1 & U & h2 & E2 & R2 & P & N).
    split; auto. split; auto. exists i, h2. do 3 (split; [assumption|]). split; [|exact N].
    intros HP. destruct (P HP) as (-> & _ & Hp & Em & Ev). split; auto.
    assert (Hm2 : has (w_map (view h2)) m) by (unfold has; rewrite Em; exact Hm).
    assert (SA : scalar_at (view h2) m k = Some s).
    { unfold scalar_at. assert (O2 : SpecWorld.object_at (view h2) m k = Some (IPtr t (Some p))).
      { rewrite <- O. clear - Em Ev. remember (view h) as w. remember (view h2) as w2.
        unfold SpecWorld.object_at, map_at. rewrite Em. destruct (dict_get _ k) as [[x|]|]; auto. }
      rewrite O2. exact Hp. }
    rewrite <- T. apply (map_same_type X h2 m k s R2 Hm2 SA).
    destruct HP as [[-> | ->] _]; destruct s as [| |[]|[]]; try discriminate; exact Logic.I.
  Qed.

  Lemma object_after_set_value h m k s : reachable X h -> has (w_map (view h)) m ->
    exists h0 p, run_call (AMapSetScalarValue m k s) h = Ok (ODone, h0) /\ reachable X h0 /\ has (w_map (view h0)) m
      /\ SpecWorld.object_at (view h0) m k = Some (IPtr (stype_of s) (Some p)) /\ scalar_at (view h0) m k = Some s.
  Proof.
    intros R Hm. destruct (scalar_after_set X h m k s (AMapSetScalarValue m k s) R Hm (or_intror eq_refl)) as (h0 & E & R0 & Hm0 & SA).
    destruct (run_one _ _ (AMapSetScalarValue m k s) R Hm) as (h2 & E2 & _ & P2).
    assert (h2 = h0) as -> by congruence.
    pose proof (view_impl _ (reachable_Inv _ _ R0)) as V0.
    destruct (impl_eq _ _ _ V0 P2) as (_ & Em & _ & Ev & _).
    exists h0, (w_next (view h)). do 3 (split; [assumption|]). split; [|exact SA].
    remember (view h) as w. remember (view h0) as w0. cbn in Em, Ev. unfold SpecWorld.object_at, map_at. rewrite Em.
    unfold put. rewrite Nat.eqb_refl. cbn [the]. rewrite dict_get_set, str_eqb_refl. rewrite Ev. unfold put. now rewrite Nat.eqb_refl.
  Qed.

  Lemma set_live h m k s u : reachable X h -> has (w_map (view h)) m ->
    stype_of s = TyStr \/ stype_of s = TyBool -> stype_of u = stype_of s ->
    exists h0 p h1 h2, run_call (AMapSetScalarValue m k s) h = Ok (ODone, h0)
      /\ map_ptr (stype_of s) X m k h0 = Ok (GVal (Some p), h1)
      /\ run_call (AVarSet p u) h1 = Ok (ODone, h2)
      /\ run_getter (getter_of (stype_of s)) X h2 m k = Ok (answer_of u).
  Proof.
    intros R Hm T U. destruct (object_after_set_value h m k s R Hm) as (h0 & q & E & R0 & Hm0 & O & SA).
    assert (G : run_getter (getter_of (stype_of s)) X h0 m k = Ok (answer_of s)).
    { apply (map_same_type X h0 m k s R0 Hm0 SA). destruct T as [T|T]; destruct s as [| |[]|[]]; try discriminate; exact Logic.I. }
    destruct (map_ptr_back h0 m k s R0 Hm0 G) as (p & h1 & Ep).
    destruct (map_write _ h0 m k p h1 u R0 Hm0 Ep U) as (_ & _ & i & h2 & Oi & E2 & _ & P & _).
    exists h0, p, h1, h2. do 3 (split; [assumption|]). rewrite O in Oi. injection Oi as <-. apply P. split; eauto.
  Qed.
End S.
