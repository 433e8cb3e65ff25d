(** * Absent values, type mismatches, predicates, text conversion *)
From Coq Require Import Ascii String List NArith ZArith Bool Lia.
From Verif Require Import GoStr StrLemmas GoNum GoFloat Heap Common ValueModel ArrayModel MapModel
  GetterModel SpecDict DictLemmas SpecWorld SpecNum NumLemmas Inv World Reach MapFacts GetterFacts
  GetterFrame GetterLift.
Import ListNotations.
Local Open Scope Z_scope.

Lemma absent_getters X h m k :
  reachable X h -> has (w_map (view h)) m ->
  map_IsNull h m k = Ok (absent (view h) m k)
  /\ (absent (view h) m k = true ->
      map_GetObject h m k = Ok INil
      /\ map_GetType X h m k = Ok TNil
      /\ (forall p, map_is p X h m k = Ok false)
      /\ (forall b, map_IsBoolVal b X h m k = Ok false)
      /\ map_IsEmptyString X h m k = Ok false
      /\ (forall kd, kd <> KUInt -> map_GetIntKind kd X h m k = Ok (GVal None)
                                    /\ exists e, map_GetIntKindValue kd X h m k = Ok (GErr [e]))
      /\ map_GetFloat32 X h m k = Ok (GVal None) /\ (exists e, map_GetFloat32Value X h m k = Ok (GErr [e]))
      /\ map_GetFloat64 X h m k = Ok (GVal None) /\ (exists e, map_GetFloat64Value X h m k = Ok (GErr [e]))
      /\ map_GetString X h m k = Ok (GVal None) /\ (exists e, map_GetStringValue X h m k = Ok (GErr [e]))
      /\ map_GetBool X h m k = Ok (GVal None)
      /\ map_GetMap X h m k = Ok (GVal None) /\ (exists e, map_GetMapValue X h m k = Ok (GErr [e]))
      /\ map_GetArray X h m k = Ok (GVal None) /\ (exists e, map_GetArrayValue X h m k = Ok (GErr [e]))
      /\ map_GetErrors X h m k = Ok (GVal []) /\ map_GetFunc X h m k = Ok (GVal None)).
Proof.
  intros R Hm. pose proof (reachable_Inv _ _ R) as I. split; [now apply map_IsNull_view|].
  intros A.
  assert (Vi : forall B (nr : B) get, map_via nr get h m k = Ok nr)
    by (intros; now apply map_via_absent).
  unfold map_GetObject, map_GetType, map_is, map_IsBoolVal, map_IsEmptyString, map_GetFloat32,
    map_GetFloat32Value, map_GetFloat64, map_GetFloat64Value, map_GetString, map_GetStringValue,
    map_GetBool, map_GetArrayValue, map_GetArray, map_GetErrors, map_GetFunc. rewrite !Vi.
  assert (M : map_GetMap X h m k = Ok (GVal None) /\ exists e, map_GetMapValue X h m k = Ok (GErr [e])).
  { unfold map_GetMap, map_GetMapValue. rewrite (map_GetValue_view h I m k Hm). cbn [rbind].
    unfold absent in A. destruct (object_at (view h) m k) as [i|] eqn:O.
    - destruct (object_at_Some h I m k i Hm O) as (v & D & Hv & _). rewrite D. cbn [the].
      unfold value_GetMap, value_GetMapValue. rewrite (proj2 (rd_val_iff _ _ _) Hv). cbn [rbind].
      unfold iface_IsNil.
      replace (common_IsNil i) with true
        by (rewrite <- A; now destruct i as [| |t [p|]|z|[z|]|z|[z|]|z|[z|]| | |[?|]|[?|]| |[?|]| | |[?|]|[?|]|? [?|]]).
      cbn. eauto.
    - rewrite (object_at_None h I m k Hm O). eauto. }
  destruct M as [M1 M2].
  repeat split; eauto.
  - destruct kd; cbn [map_GetIntKind]; apply Vi || congruence.
  - exists ENilValue. destruct kd; cbn [map_GetIntKindValue]; apply Vi || congruence.
  - cbn. eauto.
Qed.

(** ** Type mismatches *)
Lemma cat_not_nil h i c : cat_of (view h) i = Some c -> nil_object i = false.
Proof. destruct i as [| |t [p|]|z|[z|]|z|[z|]|z|[z|]| | |[?|]|[?|]| |[?|]| | |[?|]|[?|]|? [?|]]; cbn; intros E; discriminate E || reflexivity. Qed.

Section MM.
  Context (X : ext) (h : heap) (m : nat) (k : str) (i : iface).
  Hypothesis R : reachable X h.
  Hypothesis Hm : has (w_map (view h)) m.
  Hypothesis Ho : object_at (view h) m k = Some i.

  Let I := reachable_Inv _ _ R.

  (** A getter that is total on values is total on the map. *)
  Lemma map_via_total {B} (nr : B) get :
    (forall v, nth_error h v = Some (CVal i) -> ok_iface h i -> exists r, get v = Ok r) ->
    exists r, map_via nr get h m k = Ok r.
  Proof.
    intros T. destruct (nil_object i) eqn:N.
    - exists nr. apply map_via_absent; auto. unfold absent. now rewrite Ho.
    - destruct (map_via_present h I m k i Hm Ho N) as (v & Hv & Oi & _ & Vi).
      rewrite Vi. now apply T.
  Qed.

  Lemma deref_total : ok_iface h i -> (exists t, i = IPtr t None) \/ exists o, deref h i = Ok o.
  Proof.
    destruct i as [| |t [p|]|z|[z|]|z|[z|]|z|[z|]| | |[?|]|[?|]| |[?|]| | |[?|]|[?|]|? [?|]]; cbn; eauto.
    intros (s & Hs & T). right. rewrite (proj2 (rd_ptr_iff _ _ _) Hs). cbn [rbind].
    assert (Q : stype_eqb (stype_of s) t = true).
    { subst t. destruct s as [| |k0|[|]]; cbn; auto. now destruct k0. }
    rewrite Q. eauto.
  Qed.
  Lemma deref_total' : ok_iface h i -> iface_IsNil X i = false -> exists o, deref h i = Ok o.
  Proof. intros O N. destruct (deref_total O) as [[t ->]|D]; auto. discriminate. Qed.

  Hypothesis Nn : nested i -> x_typed_nil X = true.
  Hypothesis Ne : ~ holds_no_error (view h) i.

  Lemma conv_string_total z : x_typed_nil X = true -> ok_iface h (IVal z) -> i = IVal z \/ i = IPVal (Some z) ->
    exists r, conv_string X h (IVal z) = Ok r.
  Proof.
    intros T [tv Hz] Ei. unfold conv_string. cbn [common_IsNil]. rewrite (proj2 (rd_val_iff _ _ _) Hz). cbn [rbind].
    pose proof (inv_val _ I _ _ Hz) as Ot.
    assert (Nt : tv <> IPErr (Some NoError)).
    { intros ->. apply Ne. exists z. split; auto. unfold view. cbn. now rewrite Hz. }
    unfold conv_held, common_GetType. rewrite T, andb_true_r.
    destruct tv as [|s|t [p|]|q|[q|]|q|[q|]|q|[q|]| | |[?|]|[?|]| |[[| |]|]| | |[?|]|[?|]|n [d|]]; cbn [common_IsNil static_type deref rbind];
      eauto; try congruence.
    - destruct Ot as (s & Hs & E). rewrite (proj2 (rd_ptr_iff _ _ _) Hs). cbn [rbind].
      assert (Q : stype_eqb (stype_of s) t = true).
      { subst t. destruct s as [| |k0|[|]]; cbn; auto. now destruct k0. }
      rewrite Q. cbn [rbind]. eauto.
    - destruct Ot as [j0 Hj]. rewrite (proj2 (rd_val_iff _ _ _) Hj). cbn [rbind]. eauto.
    - destruct Ot as [j0 Hj]. rewrite (proj2 (rd_val_iff _ _ _) Hj). cbn [rbind]. eauto.
    - destruct (str_eqb _ _); [eauto|]. destruct (existsb _ _); eauto.
  Qed.

  Lemma value_GetInt64_total v : nth_error h v = Some (CVal i) -> ok_iface h i ->
    exists r, value_GetInt64 X h v = Ok r.
  Proof.
    intros Hv O. unfold value_GetInt64. rewrite (proj2 (rd_val_iff _ _ _) Hv). cbn [rbind].
    destruct (iface_IsNil X i) eqn:N; [eauto|].
    assert (D : exists o, deref h i = Ok o) by (now apply deref_total').
    destruct D as [o D].
    assert (D' : exists r, (o <-r deref h i ;; Ok (match o with Some s => scalar_int64 s | None => GErr [EType] end)) = Ok r)
      by (rewrite D; cbn [rbind]; eauto).
    assert (CS : forall z, i = IVal z \/ i = IPVal (Some z) -> exists r, conv_string X h (IVal z) = Ok r).
    { intros z Ez. apply conv_string_total; auto; [apply Nn; exists z; auto|]. revert O. now destruct Ez as [->| ->]. }
    destruct i as [|s|t [p|]|z|[z|]|z|[z|]|z|[z|]| | |[?|]|[?|]| |[?|]| | |[?|]|[?|]|? [?|]]; auto.
    - destruct (CS z) as [r ->]; auto.
      cbn [rbind]. destruct r; eauto.
    - destruct (CS z) as [r ->]; auto.
      cbn [rbind]. destruct r; eauto.
  Qed.
  Lemma value_GetUInt64_total v : nth_error h v = Some (CVal i) -> ok_iface h i ->
    exists r, value_GetUInt64 X h v = Ok r.
  Proof.
    intros Hv O. unfold value_GetUInt64. rewrite (proj2 (rd_val_iff _ _ _) Hv). cbn [rbind].
    destruct (iface_IsNil X i) eqn:N; [eauto|].
    destruct (deref_total' O N) as [o ->]. cbn [rbind]. eauto.
  Qed.
  Lemma value_GetFloat64_total v : nth_error h v = Some (CVal i) -> ok_iface h i ->
    exists r, value_GetFloat64 X h v = Ok r.
  Proof.
    intros Hv O. unfold value_GetFloat64. rewrite (proj2 (rd_val_iff _ _ _) Hv). cbn [rbind].
    destruct (iface_IsNil X i) eqn:N; [eauto|].
    destruct (deref_total' O N) as [o ->]. cbn [rbind]. eauto.
  Qed.
  Lemma value_GetIntKind_total kd v : kd <> KUInt -> nth_error h v = Some (CVal i) -> ok_iface h i ->
    exists r, value_GetIntKind kd X h v = Ok r.
  Proof.
    intros N Hv O. destruct (value_GetInt64_total v Hv O) as [r E].
    destruct (value_GetUInt64_total v Hv O) as [r' E'].
    destruct kd; cbn [value_GetIntKind]; unfold value_GetInt, value_GetInt8, value_GetInt16,
      value_GetInt32, value_GetUInt8, value_GetUInt16, value_GetUInt32; rewrite ?E, ?E'; cbn [rbind]; eauto.
    - destruct (x_is64 X); eauto.
    - congruence.
  Qed.
  Lemma value_GetBool_total v : nth_error h v = Some (CVal i) -> ok_iface h i ->
    exists r, value_GetBool_content X h v = Ok r.
  Proof.
    intros Hv O. unfold value_GetBool_content, value_GetBool. rewrite (proj2 (rd_val_iff _ _ _) Hv). cbn [rbind].
    destruct (iface_IsNil X i) eqn:N; [cbn; eauto|].
    destruct i as [|[]|[] [p|]|z|[z|]|z|[z|]|z|[z|]| | |[?|]|[?|]| |[?|]| | |[?|]|[?|]|? [?|]]; try discriminate; cbn [rbind]; eauto;
      cbn [deref rbind].
    - destruct (bool_of_text s); cbn [rbind]; eauto.
      unfold bind, alloc, ret. cbn [rbind]. unfold rd_ptr. rewrite nth_error_alloc_new. cbn [rbind]. eauto.
    - unfold bind, alloc, ret. cbn [rbind]. unfold rd_ptr. rewrite nth_error_alloc_new. cbn [rbind]. eauto.
    - destruct O as (s & Hs & T). rewrite (proj2 (rd_ptr_iff _ _ _) Hs). destruct s; try discriminate.
      cbn [rbind stype_of stype_eqb]. destruct (bool_of_text s); cbn [rbind]; eauto.
      unfold bind, alloc, ret. cbn [rbind]. unfold rd_ptr. rewrite nth_error_alloc_new. cbn [rbind]. eauto.
    - destruct O as (s & Hs & T). rewrite (proj2 (rd_ptr_iff _ _ _) Hs). destruct s; try discriminate.
      cbn [rbind]. eauto.
  Qed.

  (** No panic, whatever is stored. *)
  Lemma getters_total :
    (forall kd, kd <> KUInt -> (exists r, map_GetIntKind kd X h m k = Ok r)
                               /\ exists r, map_GetIntKindValue kd X h m k = Ok r)
    /\ (exists r, map_GetFloat32 X h m k = Ok r) /\ (exists r, map_GetFloat32Value X h m k = Ok r)
    /\ (exists r, map_GetFloat64 X h m k = Ok r) /\ (exists r, map_GetFloat64Value X h m k = Ok r)
    /\ (exists r, map_GetBool X h m k = Ok r)
    /\ (exists r, map_GetMap X h m k = Ok r) /\ (exists r, map_GetMapValue X h m k = Ok r)
    /\ (exists r, map_GetArray X h m k = Ok r) /\ (exists r, map_GetArrayValue X h m k = Ok r).
  Proof.
    assert (F : forall v, nth_error h v = Some (CVal i) -> ok_iface h i -> exists r, value_GetFloat64 X h v = Ok r)
      by exact value_GetFloat64_total.
    assert (Ar : exists r, map_GetArray X h m k = Ok r).
    { apply map_via_total. intros v Hv O. unfold value_GetArray.
      rewrite (proj2 (rd_val_iff _ _ _) Hv). cbn [rbind].
      destruct (iface_IsNil X i); eauto. destruct i; eauto. }
    repeat split; auto.
    - destruct kd; try congruence; apply map_via_total; intros v Hv O; apply value_GetIntKind_total; auto.
    - destruct kd; try congruence; apply map_via_total; intros v Hv O; unfold value_GetIntKindValue;
        (destruct (fun p => value_GetIntKind_total _ v p Hv O) with (kd := KInt8) as [? _] + idtac);
        match goal with |- exists r, rbind (value_GetIntKind ?kd _ _ _) _ = _ =>
          destruct (value_GetIntKind_total kd v) as [r ->]; auto; cbn [rbind]; eauto end.
    - apply map_via_total. intros v Hv O. unfold value_GetFloat32. destruct (F v Hv O) as [r ->]. cbn [rbind]. eauto.
    - apply map_via_total. intros v Hv O. unfold value_GetFloat32Value. destruct (F v Hv O) as [r ->]. cbn [rbind]. eauto.
    - apply map_via_total. intros v Hv O. auto.
    - apply map_via_total. intros v Hv O. unfold value_GetFloat64Value. destruct (F v Hv O) as [r ->]. cbn [rbind]. eauto.
    - apply map_via_total. exact value_GetBool_total.
    - unfold map_GetMap. rewrite (map_GetValue_view h I m k Hm). cbn [rbind].
      destruct (object_at_Some h I m k i Hm Ho) as (v & D & Hv & _). rewrite D. cbn [the].
      unfold value_GetMap. rewrite (proj2 (rd_val_iff _ _ _) Hv). cbn [rbind].
      destruct (iface_IsNil X i); eauto. destruct i; eauto.
    - unfold map_GetMapValue. rewrite (map_GetValue_view h I m k Hm). cbn [rbind].
      destruct (object_at_Some h I m k i Hm Ho) as (v & D & Hv & _). rewrite D. cbn [the].
      unfold value_GetMapValue. rewrite (proj2 (rd_val_iff _ _ _) Hv). cbn [rbind].
      destruct (iface_IsNil X i) eqn:N; eauto. destruct i as [|[]|[] [p|]|z|[z|]|z|[z|]|z|[z|]| | |[?|]|[?|]| |[?|]| | |[?|]|[?|]|? [?|]]; eauto.
      discriminate.
    - unfold map_GetArrayValue. destruct Ar as [r ->]. cbn [rbind]. eauto.
  Qed.
End MM.

Section Mis.
  Context (X : ext) (h : heap) (m : nat) (k : str) (i : iface) (c : category).
  Hypothesis R : reachable X h.
  Hypothesis Hm : has (w_map (view h)) m.
  Hypothesis Ho : object_at (view h) m k = Some i.
  Hypothesis Hc : cat_of (view h) i = Some c.

  Let I := reachable_Inv _ _ R.

  (** Either a scalar of that category or a container. *)
  Lemma cat_inv :
    (exists s, scalar_of (view h) i = Some s /\ scalar_at (view h) m k = Some s
       /\ c = match s with SStr _ => CatStr | SBool _ => CatBool | SInt _ _ => CatInt | SFlt _ _ => CatFlt end)
    \/ (exists z, (i = IMap z \/ i = IPMap (Some z)) /\ c = CatMap)
    \/ (exists z, (i = IArr z \/ i = IPArr (Some z)) /\ c = CatArr).
  Proof.
    unfold scalar_at. rewrite Ho. revert Hc.
    destruct i as [|s|t [p|]|z|[z|]|z|[z|]|z|[z|]| | |[?|]|[?|]| |[?|]| | |[?|]|[?|]|? [?|]]; cbn; intros H; try discriminate;
      try (inversion H; subst; eauto 8; fail).
    - left. exists s. destruct s; inversion H; auto.
    - left. destruct (nth_error h p) as [[s| | |]|]; try discriminate. exists s. destruct s; inversion H; auto.
  Qed.

  Lemma via_cat : exists v, nth_error h v = Some (CVal i)
      /\ map_GetValue h m k = Ok (Some v)
      /\ iface_IsNil X i = false
      /\ (forall A (nr : A) get, map_via nr get h m k = get v)
      /\ exists o, deref h i = Ok o
           /\ o = scalar_of (view h) i.
  Proof.
    destruct (map_via_present h I m k i Hm Ho (cat_not_nil h i c Hc)) as (v & Hv & Oi & G & Vi).
    exists v. split; auto. split; auto. split; [|split; auto].
    - unfold iface_IsNil. destruct cat_inv as [(s & S & _ & _)|[(z & [->| ->] & _)|(z & [->| ->] & _)]]; auto.
      destruct (deref_scalar h i s Oi S) as [_ D].
      pose proof (denotes_IsNil X h i s D) as N. exact N.
    - destruct cat_inv as [(s & S & _ & _)|[(z & [->| ->] & _)|(z & [->| ->] & _)]]; cbn; eauto.
      destruct (deref_scalar h i s Oi S) as [E _]. exists (Some s). split; auto.
  Qed.

  Lemma mismatch :
    (c <> CatInt -> c <> CatStr ->
       forall kd, kd <> KUInt -> exists e, map_GetIntKind kd X h m k = Ok (GErr [e])
                                           /\ map_GetIntKindValue kd X h m k = Ok (GErr [e]))
    /\ (c <> CatInt -> c <> CatStr -> c <> CatFlt ->
        exists e, map_GetFloat32 X h m k = Ok (GErr [e]) /\ map_GetFloat32Value X h m k = Ok (GErr [e])
               /\ map_GetFloat64 X h m k = Ok (GErr [e]) /\ map_GetFloat64Value X h m k = Ok (GErr [e]))
    /\ (c <> CatBool -> c <> CatStr -> exists e, map_GetBool X h m k = Ok (GErr [e]))
    /\ (c <> CatMap -> exists e, map_GetMap X h m k = Ok (GErr [e]) /\ map_GetMapValue X h m k = Ok (GErr [e]))
    /\ (c <> CatArr -> exists e, map_GetArray X h m k = Ok (GErr [e]) /\ map_GetArrayValue X h m k = Ok (GErr [e]))
    /\ (c <> CatStr -> map_GetString X h m k = Panic /\ map_GetStringValue X h m k = Panic).
  Proof.
    destruct via_cat as (v & Hv & G & N & Vi & o & D & Eo).
    pose proof (proj2 (rd_val_iff _ _ _) Hv) as Rd.
    assert (NV : forall w, i <> IVal w /\ i <> IPVal (Some w)).
    { intros w. split; intros E; rewrite E in Hc; discriminate. }
    assert (I64 : c <> CatInt -> c <> CatStr -> value_GetInt64 X h v = Ok (GErr [EType])
                                  /\ value_GetUInt64 X h v = Ok (GErr [EType])).
    { intros N1 N2. unfold value_GetInt64, value_GetUInt64. rewrite Rd. cbn [rbind]. rewrite N, D. cbn [rbind].
      assert (Q : match o with Some s => scalar_int64 s | None => GErr [EType] end = GErr [EType]
               /\ match o with Some s => scalar_uint64 s | None => GErr [EType] end = GErr [EType]).
      { subst o. destruct cat_inv as [(s & S & _ & E)|[(z & [E0|E0] & E)|(z & [E0|E0] & E)]];
          [rewrite S|rewrite E0|rewrite E0|rewrite E0|rewrite E0]; auto. destruct s; auto; congruence. }
      destruct Q as [Q1 Q2]. rewrite Q1, Q2. split; auto.
      destruct i; auto; try (destruct (NV v0); congruence).
      destruct v0; auto. destruct (NV n); congruence. }
    assert (F64 : c <> CatInt -> c <> CatStr -> c <> CatFlt -> value_GetFloat64 X h v = Ok (GErr [EType])).
    { intros N1 N2 N3. unfold value_GetFloat64. rewrite Rd. cbn [rbind]. rewrite N, D. cbn [rbind].
      subst o. destruct cat_inv as [(s & S & _ & E)|[(z & [E0|E0] & E)|(z & [E0|E0] & E)]];
          [rewrite S|rewrite E0|rewrite E0|rewrite E0|rewrite E0]; auto. destruct s; auto; congruence. }
    split; [|split; [|split; [|split; [|split]]]].
    - intros N1 N2 kd NU. destruct (I64 N1 N2) as [E1 E2].
      assert (E : value_GetIntKind kd X h v = Ok (GErr [EType])).
      { destruct kd; cbn [value_GetIntKind]; unfold value_GetInt, value_GetInt8, value_GetInt16,
          value_GetInt32, value_GetUInt8, value_GetUInt16, value_GetUInt32; rewrite ?E1, ?E2; auto.
        - now destruct (x_is64 X).
        - congruence. }
      exists EType. destruct kd; try congruence; cbn [map_GetIntKind map_GetIntKindValue]; rewrite !Vi;
        unfold value_GetIntKindValue; rewrite E; auto.
    - intros N1 N2 N3. exists EType. unfold map_GetFloat32, map_GetFloat32Value, map_GetFloat64, map_GetFloat64Value.
      rewrite !Vi. unfold value_GetFloat32, value_GetFloat32Value, value_GetFloat64Value.
      rewrite (F64 N1 N2 N3). auto.
    - intros N1 N2. exists EType. unfold map_GetBool. rewrite Vi.
      destruct cat_inv as [(s & S & _ & E)|[(z & E0 & E)|(z & E0 & E)]].
      + assert (Oi : ok_iface h i) by (eapply inv_val; eauto).
        destruct (deref_scalar h i s Oi S) as [_ Dn].
        rewrite (get_bool X h v i s Hv Dn). destruct s; auto; congruence.
      + unfold value_GetBool_content, value_GetBool. rewrite Rd. cbn [rbind]. rewrite N.
        destruct E0 as [->| ->]; reflexivity.
      + unfold value_GetBool_content, value_GetBool. rewrite Rd. cbn [rbind]. rewrite N.
        destruct E0 as [->| ->]; reflexivity.
    - intros N1. exists EType. unfold map_GetMap, map_GetMapValue. rewrite G. cbn [rbind].
      unfold value_GetMap, value_GetMapValue. rewrite Rd. cbn [rbind]. rewrite N.
      revert Hc. destruct i as [|s|t [p|]|z|[z|]|z|[z|]|z|[z|]| | |[?|]|[?|]| |[?|]| | |[?|]|[?|]|? [?|]]; cbn; intros Hc'; auto; congruence.
    - intros N1. exists EType. unfold map_GetArrayValue, map_GetArray. rewrite Vi.
      unfold value_GetArray. rewrite Rd. cbn [rbind]. rewrite N.
      revert Hc. destruct i as [|s|t [p|]|z|[z|]|z|[z|]|z|[z|]| | |[?|]|[?|]| |[?|]| | |[?|]|[?|]|? [?|]]; cbn; intros Hc'; auto; congruence.
    - intros N1. destruct cat_inv as [(s & S & Sa & E)|[(z & E0 & E)|(z & E0 & E)]].
      + apply (map_string_panics X h m k s R Hm Sa). destruct s; cbn; congruence.
      + unfold map_GetString, map_GetStringValue. rewrite !Vi.
        unfold value_GetString_content, value_GetStringValue, value_GetString. rewrite Rd. cbn [rbind]. rewrite N.
        destruct E0 as [->| ->]; auto.
      + unfold map_GetString, map_GetStringValue. rewrite !Vi.
        unfold value_GetString_content, value_GetStringValue, value_GetString. rewrite Rd. cbn [rbind]. rewrite N.
        destruct E0 as [->| ->]; auto.
  Qed.
End Mis.
