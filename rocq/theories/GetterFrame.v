(** * Getters depend only on what the key denotes *)
From Coq Require Import Ascii String List NArith ZArith Bool Lia.
From Verif Require Import GoStr StrLemmas GoNum GoFloat Heap Common ValueModel ArrayModel MapModel
  GetterModel SpecDict DictLemmas SpecWorld SpecNum NumLemmas Inv World Reach GetterFacts.
Import ListNotations.
Local Open Scope Z_scope.

(** [h'] keeps the values, variables and public arrays of [h]. *)
Definition agree (h h' : heap) : Prop :=
  (forall l i, nth_error h l = Some (CVal i) -> nth_error h' l = Some (CVal i))
  /\ (forall l s, nth_error h l = Some (CPtr s) -> nth_error h' l = Some (CPtr s))
  /\ (forall l xs, nth_error h l = Some (CArr xs) -> ~ owned h l -> nth_error h' l = Some (CArr xs)).

Section F.
  Context (X : ext) (h h' : heap).
  Hypothesis I : Inv h.
  Hypothesis A : agree h h'.

  Lemma agree_val v i : nth_error h v = Some (CVal i) -> rd_val h' v = Ok i /\ rd_val h v = Ok i.
  Proof. intros H. split; apply rd_val_iff; auto. now apply A. Qed.

  Lemma agree_ptr v i : nth_error h v = Some (CPtr i) -> rd_ptr h' v = Ok i /\ rd_ptr h v = Ok i.
  Proof. intros H. split; apply rd_ptr_iff; auto. now apply A. Qed.

  Lemma agree_deref i : ok_iface h i -> deref h' i = deref h i.
  Proof.
    destruct i as [| |t [p|]|m|[m|]|a|[a|]|v|[v|]| | |[?|]|[?|]| |[?|]| | |[?|]|[?|]|? [?|]]; cbn; auto.
    intros (s & Hs & _). destruct (agree_ptr _ _ Hs) as [-> ->]. reflexivity.
  Qed.

  Lemma agree_conv_string i : ok_iface h i -> conv_string X h' i = conv_string X h i.
  Proof.
    intros O. unfold conv_string. destruct (common_IsNil i) eqn:N; auto.
    assert (G : forall tv, ok_iface h tv -> conv_held X h' tv = conv_held X h tv).
    { intros tv Ot. unfold conv_held. destruct (common_GetType X tv); auto;
        try (rewrite agree_deref by auto; reflexivity).
      - destruct tv; auto. destruct Ot as [j Hj]. destruct (agree_val _ _ Hj) as [-> ->]. reflexivity.
      - destruct tv as [| |t [p|]|m|[m|]|a|[a|]|v|[v|]| | |[?|]|[?|]| |[?|]| | |[?|]|[?|]|? [?|]]; auto.
        destruct Ot as [j Hj]. destruct (agree_val _ _ Hj) as [-> ->]. reflexivity. }
    destruct i as [| |t [p|]|m|[m|]|a|[a|]|v|[v|]| | |[?|]|[?|]| |[?|]| | |[?|]|[?|]|? [?|]]; cbn [rbind] in *; try (apply G; exact O);
      try discriminate; destruct O as [j Hj]; destruct (agree_val _ _ Hj) as [-> ->]; cbn [rbind];
      apply G; eapply inv_val; eauto.
  Qed.

  Lemma agree_conv_strings l : Forall (ok_oloc h) l -> conv_strings X h' l = conv_strings X h l.
  Proof.
    induction 1 as [|o l Ho Hl IH]; cbn; auto.
    rewrite agree_conv_string, IH; auto.
  Qed.

  Section V.
    Context (v : nat) (i : iface).
    Hypothesis Hv : nth_error h v = Some (CVal i).
    Let O : ok_iface h i := inv_val _ I _ _ Hv.

    Lemma agree_GetObject : value_GetObject h' v = value_GetObject h v.
    Proof. unfold value_GetObject. now destruct (agree_val _ _ Hv) as [-> ->]. Qed.
    Lemma agree_GetType : value_GetType X h' v = value_GetType X h v.
    Proof. unfold value_GetType. now destruct (agree_val _ _ Hv) as [-> ->]. Qed.
    Lemma agree_IsNil : value_IsNil X h' v = value_IsNil X h v.
    Proof. unfold value_IsNil. now destruct (agree_val _ _ Hv) as [-> ->]. Qed.
    Lemma agree_is p : value_is p X h' v = value_is p X h v.
    Proof. unfold value_is. now destruct (agree_val _ _ Hv) as [-> ->]. Qed.
    Lemma agree_IsBoolVal b : value_IsBoolVal b X h' v = value_IsBoolVal b X h v.
    Proof.
      unfold value_IsBoolVal. destruct (agree_val _ _ Hv) as [-> ->]. cbn [rbind].
      now rewrite agree_deref.
    Qed.
    Lemma agree_GetMap : value_GetMap X h' v = value_GetMap X h v.
    Proof. unfold value_GetMap. now destruct (agree_val _ _ Hv) as [-> ->]. Qed.
    Lemma agree_GetMapValue : value_GetMapValue X h' v = value_GetMapValue X h v.
    Proof. unfold value_GetMapValue. now destruct (agree_val _ _ Hv) as [-> ->]. Qed.
    Lemma agree_GetArray : value_GetArray X h' v = value_GetArray X h v.
    Proof. unfold value_GetArray. now destruct (agree_val _ _ Hv) as [-> ->]. Qed.
    Lemma agree_GetInt64 : value_GetInt64 X h' v = value_GetInt64 X h v.
    Proof.
      unfold value_GetInt64. destruct (agree_val _ _ Hv) as [-> ->]. cbn [rbind].
      destruct (iface_IsNil X i); auto.
      destruct i as [| |t [p|]|m|[m|]|a|[a|]|w|[w|]| | |[?|]|[?|]| |[?|]| | |[?|]|[?|]|? [?|]]; auto;
        try (rewrite agree_deref by auto; reflexivity);
        rewrite agree_conv_string by auto; reflexivity.
    Qed.
    Lemma agree_GetUInt64 : value_GetUInt64 X h' v = value_GetUInt64 X h v.
    Proof.
      unfold value_GetUInt64. destruct (agree_val _ _ Hv) as [-> ->]. cbn [rbind].
      now rewrite agree_deref.
    Qed.
    Lemma agree_GetIntKind k : value_GetIntKind k X h' v = value_GetIntKind k X h v.
    Proof.
      destruct k; cbn [value_GetIntKind]; unfold value_GetInt, value_GetInt8, value_GetInt16,
        value_GetInt32, value_GetUInt8, value_GetUInt16, value_GetUInt32;
        now rewrite ?agree_GetInt64, ?agree_GetUInt64.
    Qed.
    Lemma agree_GetFloat64 : value_GetFloat64 X h' v = value_GetFloat64 X h v.
    Proof.
      unfold value_GetFloat64. destruct (agree_val _ _ Hv) as [-> ->]. cbn [rbind].
      now rewrite agree_deref.
    Qed.
    Lemma agree_GetBoolValue : value_GetBoolValue X h' v = value_GetBoolValue X h v.
    Proof.
      unfold value_GetBoolValue. destruct (agree_val _ _ Hv) as [-> ->]. cbn [rbind].
      now rewrite agree_deref.
    Qed.
    Lemma agree_GetStringValue : value_GetStringValue X h' v = value_GetStringValue X h v.
    Proof.
      unfold value_GetStringValue, value_GetString. destruct (agree_val _ _ Hv) as [-> ->].
      cbn [rbind]. destruct (iface_IsNil X i); auto.
      destruct i as [|[]|[] [p|]|m|[m|]|a|[a|]|w|[w|]| | |[?|]|[?|]| |[?|]| | |[?|]|[?|]|? [?|]]; auto.
      - unfold bind, alloc, ret. cbn [rbind]. unfold rd_ptr. now rewrite !nth_error_alloc_new.
      - cbn [rbind]. destruct O as (s & Hs & T). destruct (agree_ptr _ _ Hs) as [-> ->]. reflexivity.
    Qed.
    Lemma agree_GetString : value_GetString_content X h' v = value_GetString_content X h v.
    Proof.
      unfold value_GetString_content, value_GetString. destruct (agree_val _ _ Hv) as [-> ->].
      cbn [rbind]. destruct (iface_IsNil X i); auto.
      destruct i as [|[]|[] [p|]|m|[m|]|a|[a|]|w|[w|]| | |[?|]|[?|]| |[?|]| | |[?|]|[?|]|? [?|]]; auto.
      - unfold bind, alloc, ret. cbn [rbind]. unfold rd_ptr. now rewrite !nth_error_alloc_new.
      - cbn [rbind]. destruct O as (s & Hs & T). destruct (agree_ptr _ _ Hs) as [-> ->]. reflexivity.
    Qed.
    Lemma agree_GetBool : value_GetBool_content X h' v = value_GetBool_content X h v.
    Proof.
      unfold value_GetBool_content, value_GetBool. destruct (agree_val _ _ Hv) as [-> ->].
      cbn [rbind]. destruct (iface_IsNil X i); auto.
      assert (N : forall b, rd_ptr (h' ++ [CPtr (SBool b)]) (length h') = Ok (SBool b)
                            /\ rd_ptr (h ++ [CPtr (SBool b)]) (length h) = Ok (SBool b)).
      { intros b. unfold rd_ptr. now rewrite !nth_error_alloc_new. }
      destruct i as [|[]|[] [p|]|m|[m|]|a|[a|]|w|[w|]| | |[?|]|[?|]| |[?|]| | |[?|]|[?|]|? [?|]]; auto.
      - cbn [deref rbind]. destruct (bool_of_text s); auto. unfold bind, alloc, ret. cbn [rbind].
        destruct (N b) as [-> ->]. reflexivity.
      - unfold bind, alloc, ret. cbn [rbind]. destruct (N b) as [-> ->]. reflexivity.
      - cbn [deref]. destruct O as (s & Hs & T). destruct (agree_ptr _ _ Hs) as [-> ->].
        destruct s; try discriminate. cbn [rbind stype_of stype_eqb].
        destruct (bool_of_text s); auto. unfold bind, alloc, ret. cbn [rbind].
        destruct (N b) as [-> ->]. reflexivity.
      - cbn [rbind]. destruct O as (s & Hs & T). destruct (agree_ptr _ _ Hs) as [-> ->]. reflexivity.
    Qed.
    Lemma agree_IsEmptyString : value_IsEmptyString X h' v = value_IsEmptyString X h v.
    Proof.
      unfold value_IsEmptyString. rewrite agree_GetStringValue.
      now destruct (agree_val _ _ Hv) as [-> ->].
    Qed.
    Lemma agree_GetErrors : value_GetErrors X h' v = value_GetErrors X h v.
    Proof.
      unfold value_GetErrors. destruct (agree_val _ _ Hv) as [-> ->]. cbn [rbind].
      destruct (iface_IsNil X i); auto.
      destruct i as [|[]|[] [p|]|m|[m|]|a|[a|]|w|[w|]| | |[?|]|[?|]| |[?|]| | |[?|]|[?|]|? [?|]]; auto;
        destruct O as ((l & Hl) & N);
        rewrite (proj2 (rd_arr_iff _ _ _) Hl), (proj2 (rd_arr_iff _ _ _) (proj2 (proj2 A) _ _ Hl N));
        cbn [rbind]; rewrite agree_conv_strings; auto; eapply inv_arr; eauto.
    Qed.
    Lemma agree_GetFunc : value_GetFunc X h' v = value_GetFunc X h v.
    Proof. unfold value_GetFunc. now destruct (agree_val _ _ Hv) as [-> ->]. Qed.
  End V.

  (** Two maps that hold the same value under a key answer alike. *)
  Lemma run_getter_agree g m1 m2 k o :
    map_HasKey h' m2 k = map_HasKey h m1 k ->
    map_GetValue h m1 k = Ok o -> map_GetValue h' m2 k = Ok o -> ok_oloc h o ->
    run_getter g X h' m2 k = run_getter g X h m1 k.
  Proof.
    intros HK G G' Oo.
    assert (N : map_IsNull h' m2 k = map_IsNull h m1 k).
    { unfold map_IsNull, map_GetValue in *.
      destruct (rd_map h m1) as [mo| | |]; try discriminate.
      destruct (rd_map h' m2) as [mo'| | |]; try discriminate. cbn [rbind] in *.
      inversion G. inversion G'.
      destruct (tbl_get (m_tbl mo) k) as [[v|]|], (tbl_get (m_tbl mo') k) as [[v'|]|];
        try congruence. subst o. inversion H1. subst v'.
      destruct Oo as [i Hi]. destruct (agree_val _ _ Hi) as [-> ->]. reflexivity. }
    assert (Via : forall B (nr : B) get get',
      (forall v i, nth_error h v = Some (CVal i) -> get' v = get v) ->
      map_via nr get' h' m2 k = map_via nr get h m1 k).
    { intros B nr get get' E. unfold map_via. rewrite N, G, G'.
      destruct (map_IsNull h m1 k) as [[]| | |]; auto. cbn [rbind].
      destruct o as [v|]; auto. destruct Oo as [i Hi]. eapply E; eauto. }
    assert (Ar : map_GetArray X h' m2 k = map_GetArray X h m1 k).
    { unfold map_GetArray. apply Via. intros; now apply (agree_GetArray v i). }
    assert (FF : forall v i, nth_error h v = Some (CVal i) -> value_GetFloat64 X h' v = value_GetFloat64 X h v).
    { intros; now apply (agree_GetFloat64 v i). }
    destruct g; cbn [run_getter]; f_equal; auto.
    - now rewrite G, G'.
    - apply Via. intros; now apply (agree_GetObject v i).
    - apply Via. intros; now apply (agree_GetType v i).
    - apply Via. intros; now apply (agree_is v i).
    - apply Via. intros; now apply (agree_IsBoolVal v i).
    - apply Via. intros; now apply (agree_IsEmptyString v i).
    - destruct k0; cbn [map_GetIntKind]; auto; apply Via; intros; now apply (agree_GetIntKind v i).
    - destruct k0; cbn [map_GetIntKindValue]; auto; apply Via; intros v i Hv;
        unfold value_GetIntKindValue; now rewrite (agree_GetIntKind v i).
    - apply Via. intros; unfold value_GetFloat32; now rewrite (FF v i).
    - apply Via. intros; unfold value_GetFloat32Value; now rewrite (FF v i).
    - now apply Via.
    - apply Via. intros; unfold value_GetFloat64Value; now rewrite (FF v i).
    - apply Via. intros; now apply (agree_GetString v i).
    - apply Via. intros; now apply (agree_GetStringValue v i).
    - apply Via. intros; now apply (agree_GetBool v i).
    - unfold map_GetMap. rewrite G, G'. cbn [rbind]. destruct o as [v|]; auto.
      destruct Oo as [i Hi]. now apply (agree_GetMap v i).
    - unfold map_GetMapValue. rewrite G, G'. cbn [rbind]. destruct o as [v|]; auto.
      destruct Oo as [i Hi]. now apply (agree_GetMapValue v i).
    - unfold map_GetArrayValue. now rewrite Ar.
    - apply Via. intros; now apply (agree_GetErrors v i).
    - apply Via. intros; now apply (agree_GetFunc v i).
  Qed.
End F.
