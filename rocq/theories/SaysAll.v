(** * The texts of the getters' errors: values, maps and arrays (proofs for C80) *)
From Coq Require Import Ascii String List NArith ZArith Bool Lia.
From Verif Require Import GoStr StrLemmas GoNum GoFloat NumLemmas Heap Common ValueModel ArrayModel MapModel RunesModel GetterModel
  MessageModel SpecDict SpecNum SpecWorld Inv World Reach MapFacts GetterFacts SpecDoc SpecRender ShowFacts SpecString IndexFacts
  SpecMessage MessageFacts SpecNamed SaysModel SpecSays SaysFacts SaysInts SaysRest.
Import ListNotations.
Local Open Scope Z_scope.

Section S.
  Context (Q : str -> str) (X : ext) (h : heap) (I : Inv h).

  Lemma arr_vals a l : rd_arr h a = Ok l -> Forall (fun o => forall w, o = Some w -> exists j, nth_error h w = Some (CVal j)) l.
  Proof.
    intros E. apply rd_arr_iff in E. apply (inv_arr _ I) in E. eapply Forall_impl; [|exact E].
    intros o K w ->. exact K.
  Qed.

  Lemma errors_iff v i ms : nth_error h v = Some (CVal i) ->
    value_says Q X h QErrs v = Ok ms <-> texts Q X h QErrs i ms.
  Proof.
    intros V. pose proof (inv_val _ I _ _ V) as O. cbn [value_says].
    assert (A : forall a, i = IArr a \/ i = IPArr (Some a) ->
      errors_say X h v = (l <-r rd_arr h a ;; elems_say X h l) /\ unset X i = false).
    { intros a E. unfold errors_say. rewrite (rdv _ _ _ V). cbn [rbind]. rewrite isnil.
      destruct E as [-> | ->]; auto. }
    destruct (array_dec i) as [[a E]|NA].
    - destruct (A a E) as [-> N]. pose proof (proj2 (set_iff X i) N) as NN.
      split.
      + intros H. destruct (rd_arr h a) as [l| | |] eqn:R; try discriminate H. cbn [rbind] in H.
        eapply tx_errs_array; eauto. apply (elems_iff X h l); auto. eapply arr_vals; eauto.
      + intros H. inversion H as [| | | | | | | | | | | | | | | | |? a' l ? N' E' R El|? ? NA ?]; subst.
        * assert (a' = a) by (destruct E as [-> | ->], E' as [E'|E']; congruence). subst a'. rewrite R. cbn [rbind].
          apply (elems_iff X h l); auto. eapply arr_vals; eauto.
        * exfalso. apply NA. now exists a.
    - assert (P : errors_say X h v = Ok ms <-> plain_texts X is_error_list [] [unsupported X (lit "Value.GetErrors") i []] i ms).
      { apply plain_iff; [apply errors_dec| | |]; unfold errors_say; rewrite (rdv _ _ _ V); cbn [rbind]; rewrite isnil.
        - intros ->. reflexivity.
        - intros N [[l [E|E]]|[l [E|E]]]; rewrite N, E; reflexivity.
        - intros N G. rewrite N. cases_iface i; try reflexivity; try discriminate N;
            try (exfalso; apply G; unfold is_error_list; eauto 6; fail); exfalso; apply NA; unfold is_array; eauto. }
      rewrite P. split; intros H.
      + now apply tx_errs.
      + inversion H as [| | | | | | | | | | | | | | | | |? a' l ? N' E' R El|? ? NA' ?]; subst; auto. exfalso. apply NA. now exists a'.
  Qed.

  Lemma says_uint v : int_says Q X h KUInt v = Panic /\ int_value_says Q X h KUInt v = Panic.
  Proof. split; reflexivity. Qed.
  Lemma kuint_dec (k : ikind) : k = KUInt \/ k <> KUInt.
  Proof. destruct k; auto; right; discriminate. Qed.

  Lemma value_says_iff g v i ms : nth_error h v = Some (CVal i) -> typed_ints X h i ->
    value_says Q X h g v = Ok ms <-> texts Q X h g i ms.
  Proof.
    intros V F. pose proof (inv_val _ I _ _ V) as O. destruct g as [k|k|k|k| | | | | | | | | | |].
    - destruct (kuint_dec k) as [->|NK].
      + split; intros H; [discriminate H|inversion H; congruence].
      + cbn [value_says]. rewrite (int_says_iff Q X h v i V O F _ _ NK). split; intros H; [now apply tx_int|now inversion H].
    - destruct (kuint_dec k) as [->|NK].
      + split; intros H; [discriminate H|inversion H; congruence].
      + cbn [value_says]. rewrite (int_value_says_iff Q X h v i V O F _ _ NK). split; intros H.
        * destruct H as [[N ->]|[N H]]; [now apply tx_int_nil|now apply tx_int_value].
        * inversion H; subst; auto.
    - rewrite (float_says_iff Q X h v i V O). split; intros H; [now apply tx_flt|now inversion H].
    - rewrite (float_value_iff Q X h v i V O). split; intros H.
      + destruct H as [[N ->]|[N H]]; [now apply tx_flt_nil|now apply tx_flt_value].
      + inversion H; subst; auto.
    - rewrite (string_iff Q X h v i V O). split; intros H.
      + destruct H as [-> H]. now apply tx_str.
      + inversion H; subst; auto.
    - rewrite (string_value_iff Q X h v i V O). split; intros H.
      + destruct H as [[H ->]|[H ->]]; [now apply tx_str_nil|now apply tx_str_value].
      + inversion H; subst; auto.
    - rewrite (bool_says_iff Q X h v i V O). split; intros H; [now apply tx_bool|now inversion H].
    - rewrite (bool_value_iff Q X h v i V O). split; intros H; [now apply tx_bool_value|now inversion H].
    - rewrite (map_iff Q X h v i V O). split; intros H; [now apply tx_map|now inversion H].
    - rewrite (map_value_iff Q X h v i V O). split; intros H; [now apply tx_map_value|now inversion H].
    - rewrite (array_iff Q X h v i V O). split; intros H; [now apply tx_arr|now inversion H].
    - rewrite (array_value_iff Q X h v i V O). split; intros H; [now apply tx_arr_value|now inversion H].
    - now apply errors_iff.
    - rewrite (func_iff Q X h v i V O). split; intros H; [now apply tx_func|now inversion H].
    - rewrite (runes_iff Q X h v i V O). split; intros H; [now apply tx_runes|now inversion H].
  Qed.

  (** ** Maps *)
  Lemma nil_text_says g : assigned g -> opt_list (map_nil_text g) = nothing_says g.
  Proof. intros (_ & A & _). destruct g as [[]|[]|[]|[]| | | | | | | | | | |]; try reflexivity. congruence. Qed.

  Lemma map_via_says g m k ms : has (w_map (view h)) m ->
    (forall i, SpecWorld.object_at (view h) m k = Some i -> typed_ints X h i) ->
    assigned g -> g <> QMap -> g <> QMapV -> g <> QArrV ->
    map_via (opt_list (map_nil_text g)) (value_says Q X h g) h m k = Ok ms <-> map_texts Q X h (view h) g m k ms.
  Proof.
    intros Hm F A N1 N2 N3. rewrite nil_text_says by auto.
    destruct (SpecWorld.object_at (view h) m k) as [i|] eqn:Ob.
    - destruct (nil_object i) eqn:N.
      + rewrite (map_via_absent h I) by (auto; unfold absent; now rewrite Ob, N). split; intros H.
        * injection H as <-. eapply mt_nil; eauto.
        * inversion H; subst; try congruence; auto. exfalso. intuition congruence.
      + destruct (map_via_present h I m k i Hm Ob N) as (v & V & _ & _ & E). rewrite E.
        rewrite (value_says_iff g v i ms V (F _ eq_refl)). split; intros H.
        * eapply mt_value; eauto.
        * inversion H; subst; try congruence.
    - rewrite (map_via_absent h I) by (auto; unfold absent; now rewrite Ob). split; intros H.
      + injection H as <-. now apply mt_missing.
      + inversion H; subst; try congruence; auto.
  Qed.

  Lemma texts_arr_cases v i : nth_error h v = Some (CVal i) ->
    exists r m, value_GetArray X h v = Ok r /\ value_says Q X h QArr v = Ok m
      /\ (counts_as_nil X i <-> r = GVal None).
  Proof.
    intros V. cbn [value_says]. unfold value_GetArray, array_says. rewrite (rdv _ _ _ V). cbn [rbind]. rewrite isnil.
    unfold counts_as_nil. destruct (unset X i) eqn:N.
    - do 2 eexists. split; [reflexivity|]. split; [reflexivity|]. tauto.
    - cases_iface i; try discriminate N; (do 2 eexists; split; [reflexivity|]; split; [reflexivity|]; split; discriminate).
  Qed.

  Lemma map_says_iff g m k ms : has (w_map (view h)) m ->
    (forall i, SpecWorld.object_at (view h) m k = Some i -> typed_ints X h i) ->
    map_says Q X h g m k = Ok ms <-> map_texts Q X h (view h) g m k ms.
  Proof.
    intros Hm F.
    assert (NA : ~ assigned g -> map_says Q X h g m k = Panic /\ ~ map_texts Q X h (view h) g m k ms).
    { intros A. split.
      - unfold assigned in A. destruct g as [[]|[]|[]|[]| | | | | | | | | | |]; try reflexivity; exfalso; apply A; repeat split; discriminate.
      - intros H. inversion H; subst; try contradiction; apply A; repeat split; discriminate. }
    assert (D : assigned g \/ ~ assigned g).
    { unfold assigned. destruct g as [[]|[]|[]|[]| | | | | | | | | | |]; try (left; repeat split; discriminate);
        right; intros (A & B & C); congruence. }
    destruct D as [A|A]; [|destruct (NA A) as [-> N]; split; [discriminate|contradiction]]. clear NA.
    assert (MM : g = QMap \/ g = QMapV -> map_says Q X h g m k = Ok ms <-> map_texts Q X h (view h) g m k ms).
    { intros G. assert (E : map_says Q X h g m k = (o <-r map_GetValue h m k ;;
        match o with None => Ok (opt_list (map_nil_text g)) | Some v => value_says Q X h g v end)) by (destruct G as [-> | ->]; reflexivity).
      rewrite E, (map_GetValue_view h I) by auto. cbn [rbind]. rewrite nil_text_says by auto.
      destruct (SpecWorld.object_at (view h) m k) as [i|] eqn:Ob.
      - destruct (object_at_Some h I _ _ _ Hm Ob) as (v & Dv & V & _). rewrite Dv. cbn [the].
        rewrite (value_says_iff g v i ms V (F _ eq_refl)). split; intros H.
        + eapply mt_value; eauto. destruct G as [-> | ->]; discriminate.
        + inversion H; subst; try congruence; intuition congruence.
      - rewrite (object_at_None h I _ _ Hm Ob). split; intros H.
        + injection H as <-. now apply mt_missing.
        + inversion H; subst; try congruence; auto. }
    assert (AA : g = QArrV -> map_says Q X h g m k = Ok ms <-> map_texts Q X h (view h) g m k ms).
    { intros ->. cbn [map_says]. unfold map_GetArray. rewrite nil_text_says by auto.
      destruct (SpecWorld.object_at (view h) m k) as [i|] eqn:Ob.
      - destruct (nil_object i) eqn:N.
        + rewrite !(map_via_absent h I) by (auto; unfold absent; now rewrite Ob, N). cbn [rbind].
          assert (U : counts_as_nil X i \/ ~ counts_as_nil X i) by (unfold counts_as_nil; destruct (unset X i); auto).
          split; intros H.
          * injection H as <-. eapply mt_nil; eauto; discriminate.
          * inversion H; subst; try congruence; try reflexivity.
            match goal with U' : ~ counts_as_nil X ?j, O' : SpecWorld.object_at _ _ _ = Some ?j |- _ =>
              exfalso; apply U'; unfold counts_as_nil, unset; rewrite O' in Ob; injection Ob as ->; now rewrite N end.
        + destruct (map_via_present h I m k i Hm Ob N) as (v & V & _ & _ & E). rewrite !E.
          destruct (texts_arr_cases v i V) as (r & m0 & R & M & C). rewrite R, M. cbn [rbind]. 
          split; intros H.
          * destruct r as [[a|]|e].
            -- injection H as <-. eapply mt_array; eauto; [rewrite C; discriminate|]. apply (value_says_iff _ _ _ _ V (F _ eq_refl)), M.
            -- injection H as <-. eapply mt_array_nil; eauto. now apply C.
            -- injection H as <-. eapply mt_array; eauto; [rewrite C; discriminate|]. apply (value_says_iff _ _ _ _ V (F _ eq_refl)), M.
          * inversion H as [A' O'|i' A' _ _ O' N'|i' ms' A' NQ O' _ T|i' _ O' U|i' ms' _ O' U T]; subst; try congruence.
            -- assert (i' = i) by congruence. subst i'. apply C in U. subst r. reflexivity.
            -- assert (i' = i) by congruence. subst i'. apply (value_says_iff _ _ _ _ V (F _ eq_refl)) in T.
               assert (ms = m0) by congruence. subst m0. destruct r as [[a|]|e]; auto. exfalso. now apply U, C.
      - rewrite !(map_via_absent h I) by (auto; unfold absent; now rewrite Ob). cbn [rbind]. split; intros H.
        + injection H as <-. now apply mt_missing.
        + inversion H; subst; try congruence; auto. }
    destruct g as [kk|kk|kk|kk| | | | | | | | | | |]; try (apply MM; auto; fail); try (apply AA; auto; fail);
      try (apply map_via_says; auto; discriminate).
    - assert (E : map_says Q X h (QInt kk) m k = map_via (opt_list (map_nil_text (QInt kk))) (value_says Q X h (QInt kk)) h m k).
      { destruct A as (A & _). destruct kk; try reflexivity. congruence. }
      rewrite E. apply map_via_says; auto; discriminate.
    - assert (E : map_says Q X h (QIntV kk) m k = map_via (opt_list (map_nil_text (QIntV kk))) (value_says Q X h (QIntV kk)) h m k).
      { destruct A as (_ & A & _). destruct kk; try reflexivity. congruence. }
      rewrite E. apply map_via_says; auto; discriminate.
    - destruct A as (_ & _ & A). congruence.
  Qed.
End S.
