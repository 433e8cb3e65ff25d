(** * Counting with a map (proofs for C68) *)
From Coq Require Import Ascii String List NArith ZArith Bool Lia.
From Verif Require Import GoStr StrLemmas GoNum GoFloat Heap Common ValueModel ArrayModel MapModel GetterModel PtrModel MetricsModel
  JsonModel ParserModel SpecDict DictLemmas SpecWorld SpecNum Inv World Reach MapFacts GetterFacts GetterFrame GetterLift GetterMore
  SpecFloat SpecDoc SpecText SpecToken SpecParse SpecPtr PtrFacts TokenFacts GetterProps ObjFacts SpecMetrics.
Import ListNotations.

Section Counting.
  Context (X : ext).

  Lemma unchanged_getter h h' g m k : reachable X h -> reachable X h' -> unchanged h h' -> has (w_map (view h)) m ->
    run_getter g X h' m k = run_getter g X h m k /\ has (w_map (view h')) m.
  Proof.
    intros R R' U Hm. pose proof (reachable_Inv _ _ R) as I. pose proof (view_impl _ I) as P.
    pose proof (reachable_Inv _ _ R') as I'. pose proof (view_impl _ I') as P'.
    assert (L : forall v, (v < w_next (view h))%nat -> old_in h v) by (intros v Q; rewrite (im_next _ _ P) in Q; exact Q).
    assert (Lm : old_in h m).
    { destruct Hm as [d Hd]. apply (im_map _ _ P) in Hd as (mo & Hmo & _). unfold old_in. eapply nth_error_lt; eauto. }
    assert (Em : w_map (view h') m = w_map (view h) m) by apply (U m Lm).
    assert (Hm' : has (w_map (view h')) m) by (unfold has; now rewrite Em). split; [|exact Hm'].
    eapply (frame_getter X h (view h) h' (view h')); eauto.
    - apply (impl_agree h (view h) h' (view h')); auto.
      + intros v i Hv. pose proof (w_val_lt _ _ P _ _ Hv) as Q. destruct (U v (L v Q)) as (_ & _ & -> & _). exact Hv.
      + intros v i Hv. pose proof (w_var_lt _ _ P _ _ Hv) as Q. destruct (U v (L v Q)) as (_ & _ & _ & ->). exact Hv.
      + intros v i Hv. assert (Q : old_in h v).
        { apply (im_arr _ _ P) in Hv as [Hv _]. unfold old_in. eapply nth_error_lt; eauto. }
        destruct (U v Q) as (_ & -> & _). exact Hv.
    - unfold map_at. now rewrite Em.
  Qed.

  Lemma int_no_pointer i : ~ has_pointer (TyInt KInt) i.
  Proof. intros [[E|E] _]; discriminate. Qed.

  Lemma bump_ok chk h m k z :
    reachable X h -> has (w_map (view h)) m -> run_getter (GInt KInt) X h m k = Ok (AnsIntP (GVal (Some z))) ->
    fits (x_is64 X) KInt (z + 1) ->
    exists h', bump X chk m k h = Ok ([], h') /\ reachable X h'
      /\ run_getter (GInt KInt) X h' m k = Ok (AnsIntP (GVal (Some (z + 1)%Z)))
      /\ (forall m2, has (w_map (view h)) m2 -> has (w_map (view h')) m2)
      /\ forall g m2 k2, has (w_map (view h)) m2 -> (m2, k2) <> (m, k) -> run_getter g X h' m2 k2 = run_getter g X h m2 k2.
  Proof.
    intros R Hm G F. destruct (map_ptr_back X h m k (SInt KInt z) R Hm G) as (p & h1 & E). cbn [stype_of] in E.
    destruct (map_points X _ h m k p h1 R Hm E) as (s & Hp & Ts & Gs). cbn [getter_of] in Gs. rewrite G in Gs.
    destruct s as [| |kd z'|]; try discriminate. cbn in Ts. injection Ts as ->. cbn in Gs. injection Gs as <-.
    destruct (map_write X _ h m k p h1 (SInt KInt (z + 1)) R Hm E eq_refl) as (R1 & U1 & i & h2 & _ & V & R2 & _ & N).
    destruct (N (int_no_pointer i)) as [Np U2].
    assert (Hm2 : has (w_map (view h2)) m) by apply (unchanged_getter h h2 (GInt KInt) m k R R2 U2 Hm).
    cbn [run_call] in V. unfold bind in V. destruct (wr p (CPtr (SInt KInt (z + 1))) h1) as [[[] hw]| | |] eqn:W; try discriminate.
    cbn in V. injection V as ->.
    assert (Hp1 : nth_error h1 p = Some (CPtr (SInt KInt z))).
    { apply (im_var _ _ (view_impl _ (reachable_Inv _ _ R1))). exact Hp. }
    assert (Hp2 : w_var (view h2) p = Some (SInt KInt (z + 1))).
    { apply (im_var _ _ (view_impl _ (reachable_Inv _ _ R2))). unfold wr in W.
      destruct (Nat.ltb_spec p (length h1)) as [Q|Q]; [|discriminate]. injection W as <-. rewrite nth_error_upd by auto. now rewrite Nat.eqb_refl. }
    destruct (set_get X h2 m k (SInt KInt (z + 1)) (AMapSet m k (IPtr (TyInt KInt) (Some p))) R2) as (h3 & E3 & R3 & G3 & _ & Fr).
    { cbn [ok_call]. split; [exact Hm2|]. cbn. eauto. }
    { left. eexists. split; [reflexivity|]. cbn. exact Hp2. }
    { exact F. }
    exists h3. split; [|split; [exact R3|split; [exact G3|split]]].
    - unfold bump, bind. rewrite E. unfold incr_int. rewrite Hp1.
      destruct (Z.eqb_spec z (int_max (x_is64 X) KInt)) as [Q|_].
      + exfalso. apply fits_iff in F. unfold in_range in F. apply andb_prop in F as [_ F]. apply Z.leb_le in F. lia.
      + rewrite W. cbn [run_call] in E3. unfold bind in E3.
        destruct (map_SetObject m k _ h2) as [[[] h4]| | |]; try discriminate. cbn in E3. injection E3 as ->. reflexivity.
    - intros m2 H2. assert (H2' : has (w_map (view h2)) m2) by apply (unchanged_getter h h2 (GInt KInt) m2 k R R2 U2 H2).
      destruct (MapFacts.run_one _ _ (AMapSet m k (IPtr (TyInt KInt) (Some p))) R2) as (h5 & E5 & _ & P5).
      { cbn [ok_call]. split; [exact Hm2|]. cbn. eauto. }
      cbn [fst spec_call] in E5. rewrite E3 in E5. injection E5 as <-.
      set (w3 := snd (spec_call (AMapSet m k (IPtr (TyInt KInt) (Some p))) (view h2))) in *.
      assert (H3 : has (w_map w3) m2).
      { remember (view h2) as w2. unfold w3. cbn. unfold has, put. destruct (Nat.eqb m2 m); eauto. }
      destruct H3 as [d3 H3]. exists d3. apply (im_map _ _ (view_impl _ (reachable_Inv _ _ R3))). now apply (im_map _ _ P5).
    - intros g m2 k2 H2 Ne. assert (H2' : has (w_map (view h2)) m2) by apply (unchanged_getter h h2 (GInt KInt) m2 k R R2 U2 H2).
      rewrite Fr by auto. apply (unchanged_getter h h2 g m2 k2 R R2 U2 H2).
  Qed.

  Lemma bumps_ok m ks l : forall h f,
    reachable X h -> has (w_map (view h)) m ->
    (forall k, In k ks -> run_getter (GInt KInt) X h m k = Ok (AnsIntP (GVal (Some (f k))))) ->
    Forall (fun ck => In (snd ck) ks) l ->
    (forall k, In k ks -> (int_min (x_is64 X) KInt <= f k /\ f k + Z.of_nat (times k (map snd l)) <= int_max (x_is64 X) KInt)%Z) ->
    exists h', bumps X m l h = Ok ([], h') /\ reachable X h'
      /\ (forall k, In k ks -> run_getter (GInt KInt) X h' m k = Ok (AnsIntP (GVal (Some (f k + Z.of_nat (times k (map snd l)))%Z))))
      /\ (forall m2, has (w_map (view h)) m2 -> has (w_map (view h')) m2)
      /\ forall g m2 k2, has (w_map (view h)) m2 -> m2 <> m \/ ~ In k2 (map snd l) -> run_getter g X h' m2 k2 = run_getter g X h m2 k2.
  Proof.
    induction l as [|[c k] l IH]; intros h f R Hm G F B.
    - exists h. split; [reflexivity|]. split; auto. split; [|split; auto]. intros k I. rewrite (G k I). now rewrite Z.add_0_r.
    - inversion F as [|? ? Ik F']; subst. cbn [snd map] in *.
      assert (Tk : forall k', times k' (k :: map snd l) = (if str_eqb k' k then 1 else 0) + times k' (map snd l)).
      { intros k'. unfold times. cbn [filter]. now destruct (str_eqb k' k). }
      destruct (bump_ok c h m k (f k) R Hm (G k Ik)) as (h1 & E & R1 & G1 & H1 & Fr1).
      { apply fits_iff. unfold in_range. destruct (B k Ik) as [B1 B2]. rewrite Tk, str_eqb_refl in B2.
        apply andb_true_intro. split; apply Z.leb_le; lia. }
      destruct (IH h1 (fun k' => if str_eqb k' k then (f k + 1)%Z else f k')) as (h2 & E2 & R2 & G2 & H2 & Fr2); auto.
      { intros k' I'. destruct (str_eqb_spec k' k) as [->|N]; [exact G1|]. rewrite Fr1; auto. congruence. }
      { intros k' I'. destruct (B k' I') as [B1 B2]. rewrite Tk in B2. destruct (str_eqb_spec k' k) as [->|N]; lia. }
      exists h2. split; [cbn [bumps]; unfold bind; now rewrite E|]. split; auto. split; [|split; auto].
      + intros k' I'. rewrite (G2 k' I'). rewrite Tk. do 4 f_equal. destruct (str_eqb_spec k' k) as [->|N]; lia.
      + intros g m2 k2 Hm2 Ne. rewrite Fr2; auto; [|destruct Ne as [Ne|Ne]; [now left|right; intros I; apply Ne; now right]].
        apply Fr1; auto. intros Q. injection Q as -> ->. destruct Ne as [Ne|Ne]; [contradiction|apply Ne; now left].
  Qed.
End Counting.
