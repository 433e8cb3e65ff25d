(** * Facts about programs that change the slice of GetKeys and the list of Values *)
From Coq Require Import Ascii String List NArith ZArith Bool Lia.
From Verif Require Import GoStr StrLemmas GoNum GoFloat Heap Common ValueModel ArrayModel MapModel JsonModel GetterModel
  ValuesModel SpecDict DictLemmas SpecWorld SpecValues SpecRender Inv World Reach MapFacts GetterFacts GetterFrame RenderFacts ValuesFacts ElemFacts
  SpecRelabel RelabelModel RelabelFacts SpecHanded HandedModel.
Import ListNotations.
Open Scope nat_scope.

Lemma rsim_values h1 h2 ns vs m mo ys : Inv h2 -> rsim h1 h2 ns vs -> nth_error h2 m = Some (CMap mo) ->
  rsim (upd h1 (m_vals mo) (CArr ys)) h2 ns (lput vs m ys).
Proof.
  intros I R H. destruct (inv_map _ I _ _ H) as [d (Ek & Ev & _)]. pose proof (r_map _ _ _ _ R _ _ H) as H1.
  pose proof (rsim_both I R m mo ys (dict_values d) (m_tbl mo) (m_keys mo) (ns m) H) as Q.
  rewrite (upd_same h2 _ _ Ev) in Q. rewrite (upd_same h2 m) in Q by (rewrite H; now destruct mo).
  rewrite (upd_same (upd h1 _ _) m) in Q.
  - eapply rsim_same; [|reflexivity|exact Q]. intros l. unfold nput. destruct (Nat.eqb_spec l m); congruence.
  - rewrite nth_error_upd by (rewrite (r_len _ _ _ _ R); now apply nth_error_lt in Ev). destruct (Nat.eqb_spec (m_vals mo) m); [congruence|]. exact H1.
Qed.

Lemma deed_rsim h1 h2 w ns vs s : Inv h2 -> impl h2 w -> rsim h1 h2 ns vs -> ok_deed s w ns ->
  exists h1' h2', run_deed s h1 = Ok (fst (fst (fst (spec_deed s w ns vs))), h1')
    /\ run_calls (own_calls [s]) h2 = Ok (fst (spec_calls (own_calls [s]) w), h2')
    /\ snd (fst (fst (spec_deed s w ns vs))) = snd (spec_calls (own_calls [s]) w)
    /\ Inv h2' /\ impl h2' (snd (fst (fst (spec_deed s w ns vs))))
    /\ rsim h1' h2' (snd (fst (spec_deed s w ns vs))) (snd (spec_deed s w ns vs)).
Proof.
  intros I P R K. destruct s as [s|m t].
  - assert (K' : ok_relabels [s] w ns vs).
    { cbn [ok_relabels]. split; [destruct s; exact K|]. destruct (spec_relabel s w ns vs) as [[[o w1] ns1] vs1]. exact Logic.I. }
    assert (C : own_calls [Name s] = without_writes [s]) by (unfold own_calls; cbn [flat_map]; now rewrite app_nil_r).
    rewrite C. apply (relabel_rsim h1 h2 w ns vs s [] I P R K').
  - assert (Km : has (w_map w) m) by (destruct t; cbn in K; tauto).
    pose proof (has_map _ _ _ P Km) as (mo & Hm & D). pose proof (r_vals _ _ _ _ R _ _ Hm) as V.
    cbn [run_deed own_calls flat_map app run_calls spec_calls fst snd]. unfold run_list_call, bind at 1, mlift, map_Values.
    rewrite (proj2 (rd_map_iff _ _ _) (r_map _ _ _ _ R _ _ Hm)). cbn [rbind m_vals].
    destruct t as [o|n o|n]; cbn [spec_deed].
    + exists (upd h1 (m_vals mo) (CArr (vs m ++ [o]))), h2. unfold bind. rewrite (app_run _ _ _ _ V). cbn [fst snd].
      split; [reflexivity|]. split; [reflexivity|]. do 3 (split; auto). now apply rsim_values.
    + unfold bind. rewrite (set_run _ _ _ n o V). destruct (valid_index (vs m) n).
      * exists (upd h1 (m_vals mo) (CArr (list_set (vs m) (Z.to_nat n) o))), h2. cbn [fst snd].
        split; [reflexivity|]. split; [reflexivity|]. do 3 (split; auto). now apply rsim_values.
      * exists h1, h2. cbn [fst snd]. split; [reflexivity|]. split; [reflexivity|]. auto.
    + unfold bind. rewrite (rem_run _ _ _ n V). destruct (valid_index (vs m) n).
      * exists (upd h1 (m_vals mo) (CArr (list_remove (vs m) (Z.to_nat n)))), h2. cbn [fst snd].
        split; [reflexivity|]. split; [reflexivity|]. do 3 (split; auto). now apply rsim_values.
      * exists h1, h2. cbn [fst snd]. split; [reflexivity|]. split; [reflexivity|]. auto.
Qed.
Lemma deeds_rsim ss : forall h1 h2 w ns vs, Inv h2 -> impl h2 w -> rsim h1 h2 ns vs -> ok_deeds ss w ns vs ->
  exists h1' h2', run_deeds ss h1 = Ok (fst (fst (fst (spec_deeds ss w ns vs))), h1')
    /\ run_calls (own_calls ss) h2 = Ok (fst (spec_calls (own_calls ss) w), h2')
    /\ snd (fst (fst (spec_deeds ss w ns vs))) = snd (spec_calls (own_calls ss) w)
    /\ Inv h2' /\ impl h2' (snd (fst (fst (spec_deeds ss w ns vs))))
    /\ rsim h1' h2' (snd (fst (spec_deeds ss w ns vs))) (snd (spec_deeds ss w ns vs)).
Proof.
  induction ss as [|s ss IH]; intros h1 h2 w ns vs I P R K.
  - exists h1, h2. cbn. auto 8.
  - cbn [ok_deeds] in K. destruct K as [K1 K2]. destruct (deed_rsim h1 h2 w ns vs s I P R K1) as (h1' & h2' & E1 & E2 & W & I' & P' & R').
    cbn [run_deeds spec_deeds]. destruct (spec_deed s w ns vs) as [[[o w1] ns1] vs1] eqn:Q. cbn [fst snd] in *.
    destruct (IH h1' h2' w1 ns1 vs1 I' P' R' K2) as (h1'' & h2'' & F1 & F2 & W2 & I2 & P2 & R2).
    destruct (spec_deeds ss w1 ns1 vs1) as [[[os w2] ns2] vs2] eqn:Q2. cbn [fst snd] in *.
    exists h1'', h2''. unfold bind. rewrite E1, F1.
    assert (C : own_calls (s :: ss) = own_calls [s] ++ own_calls ss) by (unfold own_calls; cbn [flat_map]; now rewrite app_nil_r).
    rewrite C, spec_calls_app, <- W. cbn [fst snd]. split; [reflexivity|].
    split; [now apply (run_calls_app _ _ _ _ h2')|]. auto.
Qed.
Lemma ok_own ss : forall w ns vs, ok_deeds ss w ns vs -> ok_calls (own_calls ss) w.
Proof.
  induction ss as [|s ss IH]; intros w ns vs K; [exact Logic.I|]. cbn [ok_deeds] in K. destruct K as [K1 K2]. destruct s as [[c|m i k]|m t].
  - change (own_calls (Name (Rcall c) :: ss)) with (c :: own_calls ss). split; [exact K1|]. cbn [spec_deed spec_relabel] in K2. eapply IH; exact K2.
  - change (own_calls (Name (Rwrite m i k) :: ss)) with (own_calls ss). cbn [spec_deed spec_relabel] in K2. eapply IH; exact K2.
  - change (own_calls (List m t :: ss)) with (own_calls ss). destruct t as [o|n o|n]; cbn [spec_deed] in K2; try destruct (valid_index (vs m) n); eapply IH; exact K2.
Qed.

(** ** At least as many names as keys *)
Definition enough (w : world) (ns : names) : Prop := forall m d, w_map w m = Some d -> length d <= length (ns m).
Lemma dict_set_length (d : dict (option nat)) k o : length (dict_set d k o) = length d + (if dict_has d k then 0 else 1).
Proof.
  unfold dict_has. induction d as [|[k' o'] d IH]; cbn; auto. destruct (str_eqb k' k); cbn; [lia|]. rewrite IH. destruct (dict_get d k); lia.
Qed.
Lemma dict_remove_length (d : dict (option nat)) k : dict_has d k = true -> length (dict_remove d k) < length d.
Proof.
  unfold dict_has. induction d as [|[k' o'] d IH]; cbn; [discriminate|]. destruct (str_eqb k' k) eqn:Q; cbn.
  - intros _. assert (L : forall e : dict (option nat), length (dict_remove e k) <= length e).
    { induction e as [|[x y] e IHe]; cbn; auto. destruct (str_eqb x k); cbn; lia. } specialize (L d). cbn in *. lia.
  - intros E. apply IH in E. lia.
Qed.

Lemma enough_call c w ns : enough w ns -> enough (snd (spec_call c w)) (names_after c w ns).
Proof.
  intros E.
  assert (A : forall m, length (map_at w m) <= length (ns m)).
  { intros m. unfold map_at. destruct (w_map w m) as [d|] eqn:W; cbn; [now apply E|lia]. }
  assert (S : forall m k o x d, (if Nat.eqb x m then Some (dict_set (map_at w m) k o) else w_map w x) = Some d -> length d <= length (nput ns m (names_set (map_at w m) k (ns m)) x)).
  { intros m k o x d. unfold nput. destruct (Nat.eqb x m); [|apply E]. intros [= <-]. rewrite dict_set_length. unfold names_set, is_new. specialize (A m).
    destruct (dict_has (map_at w m) k); cbn [negb orb]; [|rewrite app_length; cbn; lia]. destruct (ns m); [cbn in *|]; lia. }
  destruct c; cbn [spec_call names_after]; try exact E.
  - intros x d. cbn. unfold put, nput. destruct (Nat.eqb x _); [intros [= <-]; cbn; lia|apply E].
  - exact (S m k o).
  - exact (S m k (Some (w_next w))).
  - exact (S m k (Some (Datatypes.S (w_next w)))).
  - destruct (dict_has (map_at w m) k) eqn:H; intros x d; unfold nput, remove_at; rewrite H; cbn; unfold put; destruct (Nat.eqb_spec x m) as [->|]; auto; try apply E.
    intros [= <-]. pose proof (dict_remove_length _ _ H) as L. specialize (A m). destruct (key_position (ns m) k) as [n|] eqn:Q; [|lia].
    assert (n < length (ns m)).
    { clear -Q. revert n Q. induction (ns m) as [|y l IH]; cbn; [discriminate|]. intros n. destruct (str_eqb y k); [intros [= <-]; lia|].
      destruct (key_position l k); cbn; [|discriminate]. intros [= <-]. specialize (IH _ eq_refl). lia. }
    rewrite remove_length by auto. lia.
  - cbn. destruct (valid_index (arr_at w a) n); exact E.
  - cbn. destruct (valid_index (arr_at w a) n); exact E.
Qed.
Lemma enough_deed s w ns vs : enough w ns -> enough (snd (fst (fst (spec_deed s w ns vs)))) (snd (fst (spec_deed s w ns vs))).
Proof.
  intros E. destruct s as [[c|m i k]|m [o|n o|n]]; cbn [spec_deed spec_relabel fst snd]; auto using enough_call.
  - intros x d W. unfold nput. destruct (Nat.eqb_spec x m) as [->|]; [rewrite list_set_length|]; auto.
  - destruct (valid_index (vs m) n); exact E.
  - destruct (valid_index (vs m) n); exact E.
Qed.
Lemma enough_deeds ss : forall w ns vs, enough w ns -> enough (snd (fst (fst (spec_deeds ss w ns vs)))) (snd (fst (spec_deeds ss w ns vs))).
Proof.
  induction ss as [|s ss IH]; intros w ns vs E; [exact E|]. cbn [spec_deeds]. pose proof (enough_deed s w ns vs E) as E1.
  destruct (spec_deed s w ns vs) as [[[o w1] ns1] vs1]. cbn [fst snd] in E1. specialize (IH w1 ns1 vs1 E1).
  destruct (spec_deeds ss w1 ns1 vs1) as [[[os w2] ns2] vs2]. exact IH.
Qed.

Section Top.
  Context (X : ext) (h : heap) (ss : list deed) (Rh : reachable X h).
  Context (K : ok_deeds ss (view h) (names_of (view h)) (lists_of (view h))).
  Let r := spec_deeds ss (view h) (names_of (view h)) (lists_of (view h)).

  Lemma handed_top : exists h1 h2, run_deeds ss h = Ok (fst (fst (fst r)), h1)
    /\ run_calls (own_calls ss) h = Ok (fst (spec_calls (own_calls ss) (view h)), h2)
    /\ reachable X h2 /\ impl h2 (snd (fst (fst r))) /\ rsim h1 h2 (snd (fst r)) (snd r).
  Proof.
    pose proof (reachable_Inv _ _ Rh) as I. pose proof (view_impl _ I) as P.
    destruct (deeds_rsim ss h h (view h) _ _ I P (rsim_start _ _ I P) K) as (h1 & h2 & E1 & E2 & _ & _ & P2 & R2).
    exists h1, h2. split; [exact E1|]. split; [exact E2|]. split; [|split; [exact P2|exact R2]].
    eapply reachable_run_calls; [exact Rh|eapply ok_own; exact K|exact E2].
  Qed.

  Lemma handed_program : exists h1 h2, run_deeds ss h = Ok (fst (fst (fst r)), h1)
    /\ run_calls (own_calls ss) h = Ok (fst (spec_calls (own_calls ss) (view h)), h2) /\ reachable X h2
    /\ (forall m k g, has (w_map (view h2)) m -> run_getter g X h1 m k = run_getter g X h2 m k).
  Proof.
    destruct handed_top as (h1 & h2 & E1 & E2 & R2 & P2 & S). exists h1, h2. pose proof (reachable_Inv _ _ R2) as I2.
    split; [exact E1|]. split; [exact E2|]. split; [exact R2|].
    intros m k g Hm. eapply getter_rsim; eauto.
  Qed.

  Context (os os2 : list out) (h1 h2 : heap) (E1 : run_deeds ss h = Ok (os, h1)) (E2 : run_calls (own_calls ss) h = Ok (os2, h2)).
  Lemma handed_sim : reachable X h2 /\ impl h2 (snd (fst (fst r))) /\ rsim h1 h2 (snd (fst r)) (snd r).
  Proof. destruct handed_top as (a & b & F1 & F2 & R & P & S). rewrite E1 in F1. rewrite E2 in F2. injection F1 as -> ->. injection F2 as -> ->. auto. Qed.

  Lemma handed_count m : has (w_map (view h2)) m ->
    exists ks, map_GetKeys h1 m = Ok ks /\ length (dict_keys (map_at (view h2) m)) <= length ks.
  Proof.
    intros Hm. destruct handed_sim as (R & P2 & S). pose proof (view_impl _ (reachable_Inv _ _ R)) as P.
    destruct (has_map _ _ _ P Hm) as (mo & Em & D). exists (snd (fst r) m). split.
    - unfold map_GetKeys. now rewrite (proj2 (rd_map_iff _ _ _) (r_map _ _ _ _ S _ _ Em)).
    - assert (W : w_map (snd (fst (fst r))) m = Some (map_at (view h2) m)) by (apply (im_map _ _ P2); exists mo; auto).
      unfold dict_keys. rewrite map_length. apply (enough_deeds ss (view h) (names_of (view h)) (lists_of (view h))) in W; auto.
      intros x d Wx. unfold names_of, map_at, dict_keys. rewrite Wx. cbn. now rewrite map_length.
  Qed.
  Lemma handed_others U : as_held (view h2) (snd (fst r)) U ->
    (forall m f b, has (w_map (view h2)) m -> U m -> map_ToJSONString f X h1 m b = map_ToJSONString f X h2 m b)
    /\ (forall a f b, has (w_arr (view h2)) a -> U a -> arr_ToJSONString f X h1 a b = arr_ToJSONString f X h2 a b).
  Proof.
    intros C. destruct handed_sim as (R & _ & S). pose proof (reachable_Inv _ _ R) as I. pose proof (view_impl _ I) as P. split.
    - intros m f b Hm Um. destruct b as [t|]; [|reflexivity]. destruct (has_map _ _ _ P Hm) as (mo & Em & _).
      pose proof (held_conv X I S U C (Datatypes.S f) (IMap m) (ex_intro _ mo Em) Um) as Q. cbn in Q.
      unfold common_GetType in Q. cbn in Q. unfold map_ToJSONString. now rewrite Q.
    - intros a f b Ha Ua. destruct b as [t|]; [|reflexivity]. destruct (has_arr _ _ _ P Ha) as [Ea N].
      pose proof (held_conv X I S U C (Datatypes.S f) (IArr a) (conj (ex_intro _ _ Ea) N) Ua) as Q. cbn in Q.
      unfold common_GetType in Q. cbn in Q. unfold arr_ToJSONString. now rewrite Q.
  Qed.
End Top.

Lemma handed_alike X h ss ss' : reachable X h ->
  ok_deeds ss (view h) (names_of (view h)) (lists_of (view h)) -> ok_deeds ss' (view h) (names_of (view h)) (lists_of (view h)) ->
  own_calls ss = own_calls ss' ->
  exists os h1 os' h1', run_deeds ss h = Ok (os, h1) /\ run_deeds ss' h = Ok (os', h1')
    /\ forall m k g, has (w_map (snd (spec_calls (own_calls ss) (view h)))) m -> run_getter g X h1 m k = run_getter g X h1' m k.
Proof.
  intros Rh K K' E. destruct (handed_top X h ss Rh K) as (h1 & h2 & E1 & E2 & R2 & P2 & S). destruct (handed_top X h ss' Rh K') as (h1' & h2' & E1' & E2' & R2' & P2' & S').
  do 4 eexists. split; [exact E1|]. split; [exact E1'|]. rewrite <- E in E2'. rewrite E2 in E2'. injection E2' as <-.
  intros m k g Hm. pose proof (reachable_Inv _ _ Rh) as I. pose proof (reachable_Inv _ _ R2) as I2.
  assert (Hm2 : has (w_map (view h2)) m).
  { destruct (deeds_rsim ss h h (view h) _ _ I (view_impl _ I) (rsim_start _ _ I (view_impl _ I)) K) as (a & b & _ & F2 & W & _ & Pb & _).
    rewrite E2 in F2. injection F2 as <-. rewrite W in Pb. destruct (has_map _ _ _ Pb Hm) as (mo & Em & D).
    eexists. apply (im_map _ _ (view_impl _ I2)). exists mo. eauto. }
  rewrite (getter_rsim X h1 h2 _ _ m k g I2 S Hm2). symmetry. exact (getter_rsim X h1' h2 _ _ m k g I2 S' Hm2).
Qed.
