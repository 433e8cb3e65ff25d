(** * The texts of the getters' errors: whole arrays under a key (proofs for C80) *)
From Coq Require Import Ascii String List NArith ZArith Bool Lia.
From Verif Require Import GoStr StrLemmas GoNum GoFloat NumLemmas Heap Common ValueModel ArrayModel MapModel RunesModel GetterModel
  MessageModel SpecDict DictLemmas SpecNum SpecWorld Inv World Reach MapFacts GetterFacts SpecDoc SpecRender ShowFacts SpecString IndexFacts
  SpecMessage MessageFacts SpecNamed SaysModel SpecSays SaysFacts SaysInts SaysRest SaysAll SaysLists SaysAgree.
Import ListNotations.
Local Open Scope Z_scope.

Section S.
  Context (Q : str -> str) (X : ext) (h : heap) (I : Inv h).

  (** What GetArray of a map finds. *)
  Lemma array_cases m k : has (w_map (view h)) m ->
    (map_GetArray X h m k = Ok (GVal None) /\ map_says Q X h QArr m k = Ok []
     /\ (SpecWorld.object_at (view h) m k = None
         \/ exists i, SpecWorld.object_at (view h) m k = Some i /\ counts_as_nil X i))
    \/ (exists i, SpecWorld.object_at (view h) m k = Some i /\ ~ counts_as_nil X i
        /\ ((exists a l, map_GetArray X h m k = Ok (GVal (Some a)) /\ (i = IArr a \/ i = IPArr (Some a))
               /\ nth_error h a = Some (CArr l))
            \/ (exists e, map_GetArray X h m k = Ok (GErr e) /\ length e = 1%nat /\ ~ is_array i
               /\ map_says Q X h QArr m k = Ok [unsupported X (lit "Value.GetArray") i []]))).
  Proof.
    intros Hm. unfold map_says, map_GetArray. destruct (SpecWorld.object_at (view h) m k) as [i|] eqn:Ob.
    2:{ left. rewrite !(map_via_absent h I) by (auto; unfold absent; now rewrite Ob). auto. }
    destruct (nil_object i) eqn:N.
    { left. rewrite !(map_via_absent h I) by (auto; unfold absent; now rewrite Ob, N). repeat split; auto.
      right. exists i. split; auto. unfold counts_as_nil, unset. now rewrite N. }
    destruct (map_via_present h I m k i Hm Ob N) as (v & V & _ & _ & E). rewrite !E.
    pose proof (inv_val _ I _ _ V) as O.
    cbn [value_says]. unfold value_GetArray, array_says. rewrite (rdv _ _ _ V). cbn [rbind]. rewrite isnil.
    unfold counts_as_nil. destruct (unset X i) eqn:U.
    { left. repeat split; eauto. }
    right. exists i. split; auto. split; [rewrite U; discriminate|].
    destruct (array_dec i) as [[a E0]|NA].
    - left. assert (C : exists l, nth_error h a = Some (CArr l)) by (destruct E0 as [-> | ->]; destruct O as [[l L] _]; eauto).
      destruct C as [l L]. exists a, l. destruct E0 as [-> | ->]; auto.
    - right. cases_iface i; try discriminate U; try (exfalso; apply NA; unfold is_array; eauto; fail);
        (eexists; split; [reflexivity|]; split; [reflexivity|]; split; [exact NA|reflexivity]).
  Qed.

  Lemma counts_dec i : counts_as_nil X i \/ ~ counts_as_nil X i.
  Proof. unfold counts_as_nil. destruct (unset X i); auto. Qed.

  Lemma array_value_says m k : has (w_map (view h)) m ->
    map_says Q X h QArrV m k =
    match map_GetArray X h m k with
    | Ok (GVal None) => Ok [lit "json.Map.GetArrayValue array is nil"]
    | _ => map_says Q X h QArr m k
    end.
  Proof.
    intros Hm.
    assert (E : map_says Q X h QArrV m k = (r <-r map_GetArray X h m k ;; ms <-r map_says Q X h QArr m k ;;
      Ok (match r with GVal None => [lit "json.Map.GetArrayValue array is nil"] | _ => ms end))) by reflexivity.
    rewrite E. destruct (array_cases m k Hm) as [(E1 & E2 & _)|(i & _ & _ & [(a & l & E1 & _)|(e & E1 & _ & _ & E2)])];
      rewrite E1; cbn [rbind]; try (rewrite E2; reflexivity).
    destruct (map_says Q X h QArr m k); reflexivity.
  Qed.

  (** The messages by what GetArray finds. *)
  Lemma map_list_run g null nil m k : map_list_getter g null nil -> has (w_map (view h)) m ->
    map_list_says Q X h g m k =
    match map_GetArray X h m k with
    | Ok (GVal None) => Ok nil
    | Ok (GVal (Some a)) => array_of_says Q X h g a
    | _ => map_says Q X h QArr m k
    end /\ array_getter g null.
  Proof.
    intros G Hm. pose proof (array_value_says m k Hm) as AV.
    assert (P : forall (c : res (gres (option loc))) (d : res (list str)), c = map_GetArray X h m k -> d = map_says Q X h QArr m k ->
      forall e : loc -> res (list str),
      (r <-r c ;; match r with GErr _ => d | GVal None => Ok [] | GVal (Some a) => e a end)
      = match c with Ok (GVal None) => Ok [] | Ok (GVal (Some a)) => e a | _ => d end).
    { intros c d -> -> e. destruct (array_cases m k Hm) as [(E1 & _)|(i & _ & _ & [(a & l & E1 & _)|(x & E1 & _)])]; rewrite E1; reflexivity. }
    destruct G as [kk| |g G].
    - split; [|constructor]. cbn [map_list_says]. unfold map_GetArrayValue. rewrite AV.
      destruct (array_cases m k Hm) as [(E1 & _)|(i & _ & _ & [(a & l & E1 & _)|(x & E1 & _)])]; rewrite E1; reflexivity.
    - split; [|constructor]. cbn [map_list_says]. now apply P.
    - split; auto. inversion G; subst; try (cbn [map_list_says]; now apply P).
      destruct k0; try congruence; cbn [map_list_says]; now apply P.
  Qed.

  Lemma map_list_iff g null nil m k ms : map_list_getter g null nil -> has (w_map (view h)) m ->
    (forall i a l v j, SpecWorld.object_at (view h) m k = Some i -> i = IArr a \/ i = IPArr (Some a) -> nth_error h a = Some (CArr l) ->
       In (Some v) l -> nth_error h v = Some (CVal j) -> typed_ints X h j) ->
    map_list_says Q X h g m k = Ok ms <-> map_list_texts Q X h (view h) g null nil m k ms.
  Proof.
    intros G Hm F. destruct (map_list_run g null nil m k G Hm) as [E AG]. rewrite E. clear E.
    destruct (array_cases m k Hm) as [(E1 & _ & O)|(i & O & N & [(a & l & E1 & Ei & L)|(x & E1 & _ & NA & E2)])]; rewrite E1.
    - split; intros H.
      + injection H as <-. destruct O as [O|(i & O & N)]; [now apply ml_missing|now apply (ml_nil _ _ _ _ _ _ _ _ _ i)].
      + inversion H as [O'|i' O' N'|i' a l ? O' N'|i' O' N']; subst; auto; destruct O as [O|(i & O & N)]; congruence.
    - rewrite (array_of_iff Q X h I g null a l ms AG); [|now apply rd_arr_iff|intros; eapply F; eauto]. split; intros H.
      + eapply ml_array; eauto.
      + inversion H as [O'|i' O' N'|i' a' l' ? O' N' Ei' L' T|i' O' N' NA]; subst; try congruence.
        * assert (i' = i) by congruence. subst i'.
          assert (a' = a) by (destruct Ei as [-> | ->], Ei' as [Ei'|Ei']; congruence). subst a'. congruence.
        * assert (i' = i) by congruence. subst i'. exfalso. apply NA. now exists a.
    - rewrite E2. split; intros H.
      + injection H as <-. eapply ml_other; eauto.
      + inversion H as [O'|i' O' N'|i' a' l' ? O' N' Ei' L' T|i' O' N' NA']; subst; try congruence.
        assert (i' = i) by congruence. subst i'. exfalso. apply NA. now exists a'.
  Qed.

  Lemma list_errs_agree {A} (get : heap -> loc -> res (gres (list A))) g m k : has (w_map (view h)) m ->
    (forall a l, rd_arr h a = Ok l -> rmap (@length str) (array_of_says Q X h g a) = rmap (@length err) (rmap errs_of (get h a))) ->
    rmap (@length str) (r <-r map_GetArray X h m k ;;
       match r with GErr _ => map_says Q X h QArr m k | GVal None => Ok [] | GVal (Some a) => array_of_says Q X h g a end)
    = rmap (@length err) (rmap errs_of (map_array_of get X h m k))
    /\ rmap (@length str) (r <-r map_GetArrayValue X h m k ;;
       match r with GErr _ => map_says Q X h QArrV m k | GVal a => array_of_says Q X h g a end)
    = rmap (@length err) (rmap errs_of (map_array_of_value get X h m k)).
  Proof.
    intros Hm G. rewrite (array_value_says m k Hm). unfold map_array_of, map_array_of_value, map_GetArrayValue.
    destruct (array_cases m k Hm) as [(E1 & _)|(i & _ & _ & [(a & l & E1 & _ & L)|(x & E1 & L & _ & E2)])]; rewrite E1; cbn [rbind to_value].
    - split; reflexivity.
    - apply rd_arr_iff in L. rewrite (G a l L). split; [|reflexivity]. destruct (get h a) as [[q|q]| | |]; reflexivity.
    - rewrite E2. cbn. rewrite L. auto.
  Qed.

  Lemma map_list_agree g m k : has (w_map (view h)) m ->
    rmap (@length str) (map_list_says Q X h g m k) = rmap (@length err) (map_list_errs X h g m k).
  Proof.
    intros Hm. pose proof (fun g a l E => array_agree Q X h I g a l E) as AA.
    destruct g as [kk|kk|kk|kk| | | | | | | | | | |]; try reflexivity.
    - destruct kk; try reflexivity; cbn [map_list_says map_list_errs];
        (apply list_errs_agree; auto; match goal with |- forall a l, _ -> rmap _ (array_of_says _ _ _ ?g _) = _ => exact (AA g) end).
    - destruct kk; (apply list_errs_agree; auto; match goal with |- forall a l, _ -> rmap _ (array_of_says _ _ _ ?g _) = _ => exact (AA g) end).
    - destruct kk; (apply list_errs_agree; auto; match goal with |- forall a l, _ -> rmap _ (array_of_says _ _ _ ?g _) = _ => exact (AA g) end).
    - apply list_errs_agree; auto. exact (AA QStr).
    - apply list_errs_agree; auto. exact (AA QBool).
    - apply list_errs_agree; auto. exact (AA QBoolV).
  Qed.
End S.
