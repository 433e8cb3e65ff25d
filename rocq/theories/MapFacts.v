(** * Consequences of the refinement of the API to the world of SpecWorld.v *)
From Coq Require Import Ascii String List NArith ZArith Bool Lia.
From Verif Require Import GoStr StrLemmas GoNum GoFloat Heap Common ValueModel ArrayModel MapModel
  SpecDict DictLemmas SpecWorld Inv World Reach.
Import ListNotations.

Lemma history_out X h cs :
  reachable X h -> ok_calls cs (view h) ->
  exists h', run_calls cs h = Ok (fst (spec_calls cs (view h)), h').
Proof. intros R K. destruct (history _ _ _ R K) as (h' & E & _). eauto. Qed.

Lemma reachable_run_calls X cs : forall h os h',
  reachable X h -> ok_calls cs (view h) -> run_calls cs h = Ok (os, h') -> reachable X h'.
Proof.
  (* validity is tracked through [impl], so the proof goes through the world *)
  assert (G : forall cs h w os h', reachable X h -> impl h w -> ok_calls cs w ->
             run_calls cs h = Ok (os, h') -> reachable X h').
  { clear cs. induction cs as [|c cs IH]; cbn; intros h w os h' R P K E.
    - inversion E; subst; auto.
    - destruct K as [K1 K2]. pose proof (reachable_Inv _ _ R) as I.
      destruct (run_call_ok _ _ _ I P K1) as (h1 & E1 & I1 & X1 & P1).
      unfold bind in E. rewrite E1 in E.
      destruct (run_calls cs h1) as [[os2 h2]| | |] eqn:E2; try discriminate.
      inversion E; subst. enough (R1 : reachable X h1) by (eapply IH; eauto).
      eapply R_call; [exact R| |exact E1].
      (* ok_call does not depend on the choice of the world *)
      pose proof (view_impl _ I) as V.
      assert (Hm : forall m, has (w_map w) m -> has (w_map (view h)) m).
      { intros m [d Hd]. exists d. apply (im_map _ _ V). now apply (im_map _ _ P). }
      assert (Ha : forall m, has (w_arr w) m -> has (w_arr (view h)) m).
      { intros m [d Hd]. exists d. apply (im_arr _ _ V). now apply (im_arr _ _ P). }
      assert (Hv : forall m, has (w_val w) m -> has (w_val (view h)) m).
      { intros m [d Hd]. exists d. apply (im_val _ _ V). now apply (im_val _ _ P). }
      assert (Ho : forall o, ok_value_handle w o -> ok_value_handle (view h) o).
      { intros [v|]; cbn; auto. }
      assert (Hi : forall i, ok_object w i -> ok_object (view h) i).
      { intros [| |t [p|]|m|[m|]|a|[a|]|v|[v|]| | |[?|]|[?|]| |[?|]| | |[?|]|[?|]|? [?|]]; unfold ok_object; auto.
        intros (s & H & T). exists s. split; auto. apply (im_var _ _ V). now apply (im_var _ _ P). }
      assert (Hp : forall p s, w_var w p = Some s -> w_var (view h) p = Some s).
      { intros p s H. apply (im_var _ _ V). now apply (im_var _ _ P). }
      destruct c; cbn [ok_call] in *; intuition auto.
      + destruct K1 as (s0 & H & T). eauto.
      + destruct K1 as [s0 H]. exists s0. auto. }
  intros h os h' R K E. eapply G; eauto. apply view_impl. eapply reachable_Inv; eauto.
Qed.

Lemma reachable_map_ok X h m d : reachable X h -> w_map (view h) m = Some d -> dict_ok d.
Proof.
  intros R H. pose proof (reachable_Inv _ _ R) as I. apply (im_map _ _ (view_impl _ I)) in H.
  eapply map_dict_ok; eauto.
Qed.

Lemma run_one X h c : reachable X h -> ok_call (view h) c ->
  exists h', run_call c h = Ok (fst (spec_call c (view h)), h') /\ reachable X h'
    /\ impl h' (snd (spec_call c (view h))).
Proof.
  intros R K. pose proof (reachable_Inv _ _ R) as I.
  destruct (run_call_ok _ _ _ I (view_impl _ I) K) as (h' & E & I' & X' & P').
  exists h'. split; auto. split; auto. eapply R_call; eauto.
Qed.

(** ** Keys, values and lookups of a reachable map *)

Lemma dict_nth {V} (d : dict V) n k :
  dict_ok d -> nth_error (dict_keys d) n = Some k ->
  exists v, nth_error (dict_values d) n = Some v /\ dict_get d k = Some v.
Proof.
  intros D H. unfold dict_keys, dict_values in *. rewrite nth_error_map in H.
  destruct (nth_error d n) as [[k' v]|] eqn:E; [|discriminate]. cbn in H. inversion H; subst.
  exists v. split; [now rewrite nth_error_map, E|]. apply dict_In_get; auto. eapply nth_error_In; eauto.
Qed.

Lemma map_observations X h m :
  reachable X h -> has (w_map (view h)) m ->
  exists ks vs,
    run_call (AMapGetKeys m) h = Ok (OKeys ks, h)
    /\ run_call (AMapValues m) h = Ok (OElems vs, h)
    /\ NoDup ks /\ length vs = length ks
    /\ (forall k, exists b, run_call (AMapHasKey m k) h = Ok (OBool b, h) /\ (b = true <-> In k ks))
    /\ (forall n k, nth_error ks n = Some k ->
          exists o, nth_error vs n = Some o /\ run_call (AMapGetValue m k) h = Ok (OValue o, h))
    /\ (forall k, ~ In k ks -> run_call (AMapGetValue m k) h = Ok (OValue None, h)).
Proof.
  intros R [d Hd]. pose proof (reachable_Inv _ _ R) as I. pose proof (view_impl _ I) as V.
  pose proof (proj1 (im_map _ _ V _ _) Hd) as (mo & Hm & D).
  pose proof D as (Ek & Ha & Dk & T).
  exists (dict_keys d), (dict_values d).
  assert (Eg : forall k, run_call (AMapGetValue m k) h = Ok (OValue (the None (dict_get d k)), h)).
  { intros k. cbn. unfold bind, mlift, map_GetValue. rewrite (proj2 (rd_map_iff _ _ _) Hm). cbn.
    rewrite T. reflexivity. }
  repeat split.
  - cbn. unfold bind, mlift, map_GetKeys. rewrite (proj2 (rd_map_iff _ _ _) Hm). cbn. now rewrite Ek.
  - cbn. unfold bind, mlift, map_Values, arr_GetValues. rewrite (proj2 (rd_map_iff _ _ _) Hm). cbn.
    now rewrite (proj2 (rd_arr_iff _ _ _) Ha).
  - exact Dk.
  - unfold dict_keys, dict_values. now rewrite !map_length.
  - intros k. exists (dict_has d k). split; [|apply dict_has_keys].
    cbn. unfold bind, mlift, map_HasKey. rewrite (proj2 (rd_map_iff _ _ _) Hm). cbn.
    now rewrite (has_key_dict _ _ _ _ D).
  - intros n k Hn. destruct (dict_nth _ _ _ Dk Hn) as (v & Hv & G). exists v. split; auto.
    now rewrite Eg, G.
  - intros k N. rewrite Eg. apply dict_get_None in N. now rewrite N.
Qed.

(** ** RemoveKey *)

Lemma dict_remove_split {V} (d : dict V) k : dict_has d k = true ->
  exists a v b, d = a ++ (k, v) :: b /\ dict_remove d k = a ++ b /\ ~ In k (map fst a).
Proof.
  unfold dict_has. induction d as [|[k' v'] d IH]; cbn; [discriminate|].
  destruct (str_eqb_spec k' k).
  - intros _. subst. exists [], v', d. repeat split; auto.
  - intros H. destruct (IH H) as (a & v & b & -> & -> & N). exists ((k', v') :: a), v, b.
    repeat split; auto. cbn. intros [E|E]; auto.
Qed.

Lemma map_remove X h m k :
  reachable X h -> has (w_map (view h)) m ->
  exists ks vs,
    run_calls [AMapGetKeys m; AMapValues m] h = Ok ([OKeys ks; OElems vs], h)
    /\ (In k ks ->
        exists h' a b va v vb,
          run_call (AMapRemoveKey m k) h = Ok (OFlag true false, h')
          /\ ks = a ++ k :: b /\ vs = va ++ v :: vb /\ length va = length a
          /\ run_calls [AMapGetKeys m; AMapValues m; AMapHasKey m k] h'
             = Ok ([OKeys (a ++ b); OElems (va ++ vb); OBool false], h')
          /\ (forall m2, m2 <> m -> w_map (view h') m2 = w_map (view h) m2)
          /\ (forall l, w_arr (view h') l = w_arr (view h) l)
          /\ (forall l, w_val (view h') l = w_val (view h) l)
          /\ (forall l, w_var (view h') l = w_var (view h) l))
    /\ (~ In k ks -> run_call (AMapRemoveKey m k) h = Ok (OFlag false true, h)).
Proof.
  intros R [d Hd]. pose proof (reachable_Inv _ _ R) as I. pose proof (view_impl _ I) as V.
  pose proof (proj1 (im_map _ _ V _ _) Hd) as MD. pose proof (map_dict_ok _ _ _ MD) as Dk.
  exists (dict_keys d), (dict_values d).
  assert (O2 : forall h2 d2, map_dict h2 m d2 ->
     run_calls [AMapGetKeys m; AMapValues m] h2 = Ok ([OKeys (dict_keys d2); OElems (dict_values d2)], h2)).
  { intros h2 d2 (mo & Hm & Ek & Ha & _ & T).
    cbn. unfold bind, mlift, map_GetKeys, map_Values, arr_GetValues, ret.
    rewrite (proj2 (rd_map_iff _ _ _) Hm). cbn. rewrite (proj2 (rd_map_iff _ _ _) Hm). cbn.
    rewrite (proj2 (rd_arr_iff _ _ _) Ha). cbn. now rewrite Ek. }
  split; [now apply O2|]. pose proof (map_RemoveKey_ok h m d k I MD) as RK. split.
  - intros Hin. assert (Hk : dict_has d k = true) by (now apply dict_has_keys). rewrite Hk in RK.
    destruct RK as (h' & E & I' & X' & D' & L' & Fr).
    destruct (dict_remove_split d k Hk) as (a & v & b & Ed & Er & Na).
    exists h', (map fst a), (map fst b), (map snd a), v, (map snd b).
    assert (P' : impl h' (set_map (view h) m (dict_remove d k))).
    { eapply (impl_set_map h (view h) m d); eauto. }
    assert (V' : impl h' (view h')) by (now apply view_impl).
    repeat split.
    + cbn. unfold bind. now rewrite E.
    + rewrite Ed. unfold dict_keys. now rewrite map_app.
    + rewrite Ed. unfold dict_values. now rewrite map_app.
    + now rewrite !map_length.
    + pose proof (O2 _ _ D') as E2. rewrite Er in E2.
      cbn in E2 |- *. unfold bind in *.
      destruct D' as (mo' & Hm' & HD'). pose proof HD' as (Ek' & Ha' & Dk' & T').
      unfold mlift, map_GetKeys, map_Values, arr_GetValues, map_HasKey, ret.
      rewrite (proj2 (rd_map_iff _ _ _) Hm'). cbn. rewrite (proj2 (rd_map_iff _ _ _) Hm'). cbn.
      rewrite (proj2 (rd_arr_iff _ _ _) Ha'). cbn. rewrite (proj2 (rd_map_iff _ _ _) Hm'). cbn.
      rewrite (has_key_dict _ _ _ _ HD').
      assert (Hf : dict_has (dict_remove d k) k = false).
      { unfold dict_has. rewrite dict_get_remove by auto. now rewrite str_eqb_refl. }
      rewrite Hf, Ek', Er. unfold dict_keys, dict_values. now rewrite !map_app.
    + intros m2 N. destruct (w_map (view h) m2) as [d2|] eqn:E2.
      * apply (im_map _ _ V'). apply (im_map _ _ P'). cbn [set_map w_map]. unfold put.
        destruct (Nat.eqb_spec m2 m); congruence.
      * destruct (w_map (view h') m2) as [d3|] eqn:E3; auto.
        apply (im_map _ _ V'), (im_map _ _ P') in E3. cbn [set_map w_map] in E3. unfold put in E3.
        destruct (Nat.eqb_spec m2 m); congruence.
    + intros l. destruct (w_arr (view h) l) as [x|] eqn:E2.
      * apply (im_arr _ _ V'), (im_arr _ _ P'). exact E2.
      * destruct (w_arr (view h') l) as [y|] eqn:E3; auto.
        apply (im_arr _ _ V'), (im_arr _ _ P') in E3. cbn [set_map w_arr] in E3. congruence.
    + intros l. destruct (w_val (view h) l) as [x|] eqn:E2.
      * apply (im_val _ _ V'), (im_val _ _ P'). exact E2.
      * destruct (w_val (view h') l) as [y|] eqn:E3; auto.
        apply (im_val _ _ V'), (im_val _ _ P') in E3. cbn [set_map w_val] in E3. congruence.
    + intros l. destruct (w_var (view h) l) as [x|] eqn:E2.
      * apply (im_var _ _ V'), (im_var _ _ P'). exact E2.
      * destruct (w_var (view h') l) as [y|] eqn:E3; auto.
        apply (im_var _ _ V'), (im_var _ _ P') in E3. cbn [set_map w_var] in E3. congruence.
  - intros Hin. assert (Hk : dict_has d k = false).
    { destruct (dict_has d k) eqn:E; auto. apply dict_has_keys in E. tauto. }
    rewrite Hk in RK. cbn. unfold bind. now rewrite RK.
Qed.
