(** * Programs that write into the slice returned by GetKeys: what they see *)
From Coq Require Import Ascii String List NArith ZArith Bool Lia.
From Verif Require Import GoStr StrLemmas GoNum GoFloat Heap Common ValueModel ArrayModel MapModel JsonModel GetterModel
  ValuesModel SpecDict DictLemmas SpecWorld SpecValues SpecRender Inv World Reach MapFacts GetterFacts GetterFrame RenderFacts ValuesFacts ElemFacts
  SpecRelabel RelabelModel RelabelFacts.
Import ListNotations.
Open Scope nat_scope.

Section Top.
  Context (X : ext) (h : heap) (ss : list relabel) (Rh : reachable X h).
  Context (K : ok_relabels ss (view h) (names_of (view h)) (lists_of (view h))).
  Let r := spec_relabels ss (view h) (names_of (view h)) (lists_of (view h)).

  Lemma relabel_top : exists h1 h2, run_relabels ss h = Ok (fst (fst (fst r)), h1)
    /\ run_calls (without_writes ss) h = Ok (fst (spec_calls (without_writes ss) (view h)), h2)
    /\ reachable X h2 /\ rsim h1 h2 (snd (fst r)) (snd r).
  Proof.
    pose proof (reachable_Inv _ _ Rh) as I. pose proof (view_impl _ I) as P.
    destruct (relabels_rsim ss h h (view h) _ _ I P (rsim_start _ _ I P) K) as (h1 & h2 & E1 & E2 & _ & _ & _ & R2).
    exists h1, h2. split; [exact E1|]. split; [exact E2|]. split; [|exact R2].
    eapply reachable_run_calls; [exact Rh|eapply ok_without; exact K|exact E2].
  Qed.

  Lemma relabel_program : exists h1 h2, run_relabels ss h = Ok (fst (fst (fst r)), h1)
    /\ run_calls (without_writes ss) h = Ok (fst (spec_calls (without_writes ss) (view h)), h2) /\ reachable X h2
    /\ (forall m k g, has (w_map (view h2)) m -> run_getter g X h1 m k = run_getter g X h2 m k)
    /\ (forall m, has (w_map (view h2)) m -> map_GetKeys h1 m = Ok (snd (fst r) m)).
  Proof.
    destruct relabel_top as (h1 & h2 & E1 & E2 & R2 & S). exists h1, h2. pose proof (reachable_Inv _ _ R2) as I2.
    split; [exact E1|]. split; [exact E2|]. split; [exact R2|]. split.
    - intros m k g Hm. eapply getter_rsim; eauto.
    - intros m Hm. destruct (has_map _ _ _ (view_impl _ I2) Hm) as (mo & Em & _). unfold map_GetKeys.
      now rewrite (proj2 (rd_map_iff _ _ _) (r_map _ _ _ _ S _ _ Em)).
  Qed.

  Context (os os2 : list out) (h1 h2 : heap) (E1 : run_relabels ss h = Ok (os, h1)) (E2 : run_calls (without_writes ss) h = Ok (os2, h2)).
  Lemma relabel_sim : reachable X h2 /\ rsim h1 h2 (snd (fst r)) (snd r).
  Proof. destruct relabel_top as (a & b & F1 & F2 & R & S). rewrite E1 in F1. rewrite E2 in F2. injection F1 as -> ->. injection F2 as -> ->. auto. Qed.

  Lemma relabel_others U : as_held (view h2) (snd (fst r)) U ->
    (forall m f b, has (w_map (view h2)) m -> U m -> map_ToJSONString f X h1 m b = map_ToJSONString f X h2 m b)
    /\ (forall a f b, has (w_arr (view h2)) a -> U a -> arr_ToJSONString f X h1 a b = arr_ToJSONString f X h2 a b)
    /\ (forall v f, has (w_val (view h2)) v -> U v -> conv_json f X h1 (IPVal (Some v)) = conv_json f X h2 (IPVal (Some v))).
  Proof.
    intros C. destruct relabel_sim as [R S]. pose proof (reachable_Inv _ _ R) as I. pose proof (view_impl _ I) as P. split; [|split].
    - intros m f b Hm Um. destruct b as [t|]; [|reflexivity]. destruct (has_map _ _ _ P Hm) as (mo & Em & _).
      pose proof (held_conv X I S U C (Datatypes.S f) (IMap m) (ex_intro _ mo Em) Um) as Q. cbn in Q.
      unfold common_GetType in Q. cbn in Q. unfold map_ToJSONString. now rewrite Q.
    - intros a f b Ha Ua. destruct b as [t|]; [|reflexivity]. destruct (has_arr _ _ _ P Ha) as [Ea N].
      pose proof (held_conv X I S U C (Datatypes.S f) (IArr a) (conj (ex_intro _ _ Ea) N) Ua) as Q. cbn in Q.
      unfold common_GetType in Q. cbn in Q. unfold arr_ToJSONString. now rewrite Q.
    - intros v f Hv Uv. apply (held_conv X I S U C); [eexists; apply (has_val _ _ _ P Hv)|exact Uv].
  Qed.

  Lemma relabel_text m f b t : escape_ok X -> has (w_map (view h2)) m ->
    (forall k v, In k (snd (fst r) m) -> dict_get (map_at (view h2) m) k = Some (Some v) ->
       conv_json (S f) X h1 (IPVal (Some v)) = Ok (t k, [])) ->
    map_ToJSONString (S f) X h1 m (Some b)
    = Ok (Some (b ++ lit "{" ++ commas (map (fun k => quote k ++ lit ":" ++ listed_member (map_at (view h2) m) t k) (snd (fst r) m)) ++ lit "}"), []).
  Proof.
    intros Es Hm T. destruct relabel_sim as [R S]. pose proof (reachable_Inv _ _ R) as I. pose proof (view_impl _ I) as P.
    destruct (has_map _ _ _ P Hm) as (mo & Em & (_ & Ev & _ & G)).
    unfold map_ToJSONString, map_json. rewrite (proj2 (rd_map_iff _ _ _) (r_map _ _ _ _ S _ _ Em)). cbn [rbind m_keys m_tbl].
    set (ks := snd (fst r) m) in *. destruct ks as [|k0 ks0] eqn:Ek; [reflexivity|]. rewrite <- Ek in *.
    rewrite (json_members_ok (conv_json (Datatypes.S f) X h1) X (m_tbl mo) (listed_member (map_at (view h2) m) t) ks Es).
    - cbn [rbind fst snd]. reflexivity.
    - apply Forall_forall. intros k Ik. rewrite G. unfold listed_member. destruct (dict_get (map_at (view h2) m) k) as [[v|]|] eqn:D; try reflexivity.
      now apply T.
  Qed.
End Top.

(** ** GetKeys() and Values() stay equally long *)
Lemma position_lt l k n : key_position l k = Some n -> n < length l.
Proof.
  revert n. induction l as [|x l IH]; cbn; [discriminate|]. intros n. destruct (str_eqb x k); [intros [= <-]; lia|].
  destruct (key_position l k); cbn; [|discriminate]. intros [= <-]. specialize (IH _ eq_refl). lia.
Qed.
Definition level (ns : names) (vs : lists) : Prop := forall m, length (ns m) = length (vs m).
Lemma level_relabel s w ns vs : level ns vs -> level (snd (fst (spec_relabel s w ns vs))) (snd (spec_relabel s w ns vs)).
Proof.
  intros L. destruct s as [c|m i k]; cbn [spec_relabel fst snd].
  - assert (S : forall m k o, level (nput ns m (names_set (map_at w m) k (ns m))) (lput vs m (values_set (map_at w m) k o (ns m) (vs m)))).
    { intros m k o x. unfold nput, lput, names_set, values_set. destruct (Nat.eqb x m); [|apply L]. destruct (is_new _ _ _); [rewrite !app_length; cbn; now rewrite L|].
      destruct (key_position _ _); [now rewrite list_set_length|apply L]. }
    destruct c; cbn [names_after values_after]; try exact L; try apply S.
    + intros x. unfold nput, lput. destruct (Nat.eqb x _); [reflexivity|apply L].
    + intros x. unfold nput, lput, remove_at. destruct (Nat.eqb x m); [|apply L]. destruct (dict_has _ _); [|apply L].
      destruct (key_position (ns m) k) as [n|] eqn:Q; [|apply L]. apply position_lt in Q. rewrite !remove_length; [now rewrite L|rewrite <- L; exact Q|exact Q].
  - intros x. unfold nput. destruct (Nat.eqb_spec x m) as [->|]; [rewrite list_set_length|]; apply L.
Qed.
Lemma level_relabels ss : forall w ns vs, level ns vs -> level (snd (fst (spec_relabels ss w ns vs))) (snd (spec_relabels ss w ns vs)).
Proof.
  induction ss as [|s ss IH]; intros w ns vs L; [exact L|]. cbn [spec_relabels]. pose proof (level_relabel s w ns vs L) as L1.
  destruct (spec_relabel s w ns vs) as [[[o w1] ns1] vs1]. cbn [fst snd] in L1. specialize (IH w1 ns1 vs1 L1).
  destruct (spec_relabels ss w1 ns1 vs1) as [[[os w2] ns2] vs2]. exact IH.
Qed.
Lemma level_start w : level (names_of w) (lists_of w).
Proof. intros m. unfold names_of, lists_of, dict_keys, dict_values. now rewrite !map_length. Qed.
Lemma relabel_level ss w m : length (snd (fst (spec_relabels ss w (names_of w) (lists_of w))) m) = length (snd (spec_relabels ss w (names_of w) (lists_of w)) m).
Proof. apply (level_relabels ss w). apply level_start. Qed.

(** ** One name written over *)
Lemma position_set l i k k2 : NoDup l -> nth_error l i = Some k -> k2 <> k -> key_position (list_set l i k2) k = None.
Proof.
  revert i. induction l as [|x l IH]; intros [|i] N E D; cbn in *; try discriminate; inversion N as [|? ? N1 N2]; subst.
  - injection E as ->. destruct (str_eqb_spec k2 k); [contradiction|]. rewrite <- find_position. destruct (find_index k l) as [q|] eqn:F; auto.
    destruct N1. clear -F. revert q F. induction l as [|y l IH]; cbn; [discriminate|]. intros q. destruct (str_eqb_spec y k); [left; auto|]. destruct (find_index k l); [|discriminate]. right. eauto.
  - destruct (str_eqb_spec x k) as [->|]; [destruct N1; eapply nth_error_In; eauto|]. now rewrite (IH i).
Qed.
Section One.
  Context (X : ext) (h : heap) (m i : nat) (k k2 : str) (Rh : reachable X h) (Hm : has (w_map (view h)) m).
  Let d := map_at (view h) m.
  Context (Ei : nth_error (dict_keys d) i = Some k) (E2 : dict_has d k2 = false).

  Lemma one_facts : dict_has d k = true /\ k2 <> k /\ NoDup (dict_keys d) /\ i < length (dict_keys d).
  Proof.
    assert (H : dict_has d k = true) by (apply dict_has_keys; eapply nth_error_In; eauto). split; auto. split; [congruence|].
    destruct (has_map _ _ _ (view_impl _ (reachable_Inv _ _ Rh)) Hm) as (mo & _ & (_ & _ & D & _)). split; [exact D|]. apply nth_error_Some. congruence.
  Qed.
  Let ks := list_set (dict_keys d) i k2.
  Let st := spec_relabel (Rwrite m i k2) (view h) (names_of (view h)) (lists_of (view h)).
  Lemma one_names : nput (names_of (view h)) m (list_set (names_of (view h) m) i k2) m = ks.
  Proof. unfold nput. now rewrite Nat.eqb_refl. Qed.
  Lemma one_not_nil : exists a b, ks = a :: b.
  Proof. destruct one_facts as (_ & _ & _ & L). unfold ks. destruct (dict_keys d) as [|a b]; [cbn in L; lia|]. destruct i; cbn; eauto. Qed.

  Lemma one_run cs : ok_relabels (map Rcall cs) (view h) (nput (names_of (view h)) m ks) (lists_of (view h)) ->
    exists h1, run_relabels (Rwrite m i k2 :: map Rcall cs) h
      = Ok (ODone :: fst (fst (fst (spec_relabels (map Rcall cs) (view h) (nput (names_of (view h)) m ks) (lists_of (view h))))), h1).
  Proof.
    intros K. destruct (relabel_program X h (Rwrite m i k2 :: map Rcall cs) Rh) as (h1 & h2 & E & _).
    - cbn [ok_relabels spec_relabel]. split; [split; [exact Hm|apply one_facts]|]. exact K.
    - exists h1. rewrite E. cbn [spec_relabels spec_relabel].
      change (list_set (names_of (view h) m) i k2) with ks.
      destruct (spec_relabels (map Rcall cs) (view h) (nput (names_of (view h)) m ks) (lists_of (view h))) as [[[os w2] ns2] vs2]. reflexivity.
  Qed.

  Lemma one_removed : exists h1, run_relabels [Rwrite m i k2; Rcall (AMapHasKey m k); Rcall (AMapHasKey m k2); Rcall (AMapRemoveKey m k);
      Rcall (AMapHasKey m k); Rcall (AMapGetKeys m)] h
    = Ok ([ODone; OBool true; OBool false; OFlag true true; OBool false; OKeys ks], h1).
  Proof.
    destruct one_facts as (Hk & D & N & L). assert (Pk : key_position ks k = None) by (now apply position_set).
    pose proof (one_run [AMapHasKey m k; AMapHasKey m k2; AMapRemoveKey m k; AMapHasKey m k; AMapGetKeys m]) as Q.
    cbn [map ok_relabels spec_relabel spec_relabels result_of names_after values_after spec_call fst snd] in Q. fold d in Q.
    unfold remove_at in Q. rewrite Hk, E2 in Q. cbn [fst snd] in Q.
    assert (Em : nput (names_of (view h)) m ks m = ks) by (unfold nput; now rewrite Nat.eqb_refl). rewrite !Em in Q. rewrite Pk in Q.
    assert (Ed : map_at (set_map (view h) m (dict_remove d k)) m = dict_remove d k) by (unfold map_at, set_map, put; cbn; now rewrite Nat.eqb_refl).
    rewrite Ed in Q. assert (Hr : dict_has (dict_remove d k) k = false).
    { unfold dict_has. rewrite dict_get_remove by exact N. now rewrite str_eqb_refl. }
    rewrite Hr in Q. assert (En : nput (nput (names_of (view h)) m ks) m ks m = ks) by (unfold nput; now rewrite Nat.eqb_refl). rewrite En in Q.
    apply Q. assert (H2 : has (w_map (set_map (view h) m (dict_remove d k))) m) by (eexists; cbn; unfold put; rewrite Nat.eqb_refl; reflexivity).
    cbn [ok_call]. auto 10.
  Qed.

  Lemma one_set o : ok_value_handle (view h) o -> exists h1 h1',
    run_relabels [Rwrite m i k2; Rcall (AMapSetValue m k o); Rcall (AMapGetValue m k); Rcall (AMapGetKeys m)] h
      = Ok ([ODone; ODone; OValue o; OKeys ks], h1)
    /\ run_relabels [Rwrite m i k2; Rcall (AMapSetValue m k2 o); Rcall (AMapGetValue m k2); Rcall (AMapGetKeys m)] h
      = Ok ([ODone; ODone; OValue o; OKeys (ks ++ [k2])], h1').
  Proof.
    intros O. destruct one_facts as (Hk & D & N & L).
    assert (Em : nput (names_of (view h)) m ks m = ks) by (unfold nput; now rewrite Nat.eqb_refl).
    assert (G : forall k', dict_get (map_at (set_map (view h) m (dict_set d k' o)) m) k' = Some o).
    { intros k'. unfold map_at, set_map, put; cbn. rewrite Nat.eqb_refl. cbn. rewrite dict_get_set. now rewrite str_eqb_refl. }
    assert (H2 : forall e, has (w_map (set_map (view h) m e)) m) by (intros e; eexists; cbn; unfold put; rewrite Nat.eqb_refl; reflexivity).
    pose proof (one_run [AMapSetValue m k o; AMapGetValue m k; AMapGetKeys m]) as Q1.
    pose proof (one_run [AMapSetValue m k2 o; AMapGetValue m k2; AMapGetKeys m]) as Q2.
    cbn [map ok_relabels spec_relabel spec_relabels result_of names_after values_after spec_call fst snd] in Q1, Q2. fold d in Q1, Q2.
    rewrite !G, !Em in Q1, Q2. unfold names_set, is_new in Q1, Q2. rewrite Hk in Q1. rewrite E2 in Q2. destruct one_not_nil as (a & b & Eab).
    assert (En : forall l, nput (nput (names_of (view h)) m ks) m l m = l) by (intros l; unfold nput; now rewrite Nat.eqb_refl).
    rewrite En in Q1, Q2. rewrite Eab in Q1. cbn [negb orb] in Q1, Q2. rewrite <- Eab in Q1.
    destruct Q1 as [h1 Q1]. { cbn [ok_call]. auto 10. } destruct Q2 as [h2 Q2]. { cbn [ok_call]. auto 10. }
    exists h1, h2. split; [exact Q1|exact Q2].
  Qed.
End One.

Lemma relabel_equal X h ss : reachable X h -> ok_relabels ss (view h) (names_of (view h)) (lists_of (view h)) ->
  forall os os2 h1 h2, run_relabels ss h = Ok (os, h1) -> run_calls (without_writes ss) h = Ok (os2, h2) ->
  forall m, has (w_map (view h2)) m ->
  exists ks a vs, map_GetKeys h1 m = Ok ks /\ map_Values h1 m = Ok a /\ arr_GetValues h1 a = Ok vs /\ length ks = length vs.
Proof.
  intros Rh K os os2 h1 h2 E1 E2 m Hm. destruct (relabel_sim X h ss Rh K os os2 h1 h2 E1 E2) as [R S].
  destruct (has_map _ _ _ (view_impl _ (reachable_Inv _ _ R)) Hm) as (mo & Em & _).
  do 3 eexists. unfold map_GetKeys, map_Values, arr_GetValues. rewrite (proj2 (rd_map_iff _ _ _) (r_map _ _ _ _ S _ _ Em)). cbn [rbind m_keys m_vals].
  split; [reflexivity|]. split; [reflexivity|]. rewrite (proj2 (rd_arr_iff _ _ _) (r_vals _ _ _ _ S _ _ Em)). split; [reflexivity|]. apply relabel_level.
Qed.
