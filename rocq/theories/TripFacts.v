(** * A map read through the getters after writing and reading back *)
From Coq Require Import Ascii String List NArith ZArith Bool Lia.
From Verif Require Import GoStr StrLemmas GoNum GoFloat Heap Common ValueModel ArrayModel MapModel JsonModel ParserModel ReadModel
  SpecDict DictLemmas SpecNum NumLemmas SpecWorld Inv World Reach MapFacts GetterFacts GetterLift GetterMore ArrayGet SpecFloat FloatFacts SpecDoc RepFacts
  SpecText SpecToken SpecParse TokenFacts SpecRender SpecRound ShowFacts RoundFacts StableFacts RoundMore FloatGet SpecRead ReadFacts SpecTrip.
Import ListNotations.
Local Open Scope Z_scope.

Lemma agree_same {A} (r : res (gres A)) x : r = Ok x -> agree r (Ok x).
Proof. intros ->. destruct x; cbn; eauto. Qed.

(** ** The string and float getters of other objects *)
Section V.
  Context (X : ext) (h : heap) (v : nat) (i : iface).
  Hypothesis R : reachable X h.
  Hypothesis Hv : w_val (view h) v = Some i.
  Let I := reachable_Inv _ _ R.
  Let Cv : nth_error h v = Some (CVal i) := val_cell _ _ _ I Hv.
  Let Rd : rd_val h v = Ok i := proj2 (rd_val_iff _ _ _) Cv.

  Definition no_string : Prop := value_GetString_content X h v = Panic /\ value_GetStringValue X h v = Panic.
  Definition no_float : Prop := value_GetFloat64 X h v = Ok (GErr [EType]) /\ value_GetFloat64Value X h v = Ok (GErr [EType]).

  Lemma scalar_no_string s : denotes h i s -> (forall t, s <> SStr t) -> no_string.
  Proof.
    intros D N. unfold no_string, value_GetString_content, value_GetStringValue, value_GetString. rewrite Rd. cbn [rbind].
    rewrite (denotes_IsNil X _ _ _ D).
    destruct D as [->|(p & -> & _)]; destruct s as [t| | |[|]]; auto; now destruct (N t).
  Qed.
  Lemma container_others c : container_of i c -> no_string /\ no_float.
  Proof.
    intros Co. assert (Z : iface_IsNil X i = false) by (destruct Co as [->|[->|[->| ->]]]; reflexivity).
    unfold no_string, no_float, value_GetString_content, value_GetStringValue, value_GetFloat64Value, value_GetFloat64, value_GetString.
    rewrite Rd. cbn [rbind]. rewrite Z. destruct Co as [->|[->|[->| ->]]]; auto.
  Qed.
  Lemma scalar_kind s kd : denotes h i s -> value_GetIntKind kd X h v =
    match kd with
    | KUInt => Panic
    | KInt => Ok (if x_is64 X then scalar_int64 s else narrow (-2147483648) 2147483647 (scalar_int64 s))
    | KInt8 => Ok (narrow (-128) 127 (scalar_int64 s))
    | KInt16 => Ok (narrow (-32768) 32767 (scalar_int64 s))
    | KInt32 => Ok (narrow (-2147483648) 2147483647 (scalar_int64 s))
    | KInt64 => Ok (scalar_int64 s)
    | KUInt8 => Ok (narrow 0 255 (scalar_uint64 s))
    | KUInt16 => Ok (narrow 0 65535 (scalar_uint64 s))
    | KUInt32 => Ok (narrow 0 4294967295 (scalar_uint64 s))
    | KUInt64 => Ok (scalar_uint64 s)
    end.
  Proof.
    intros D. destruct kd; cbn [value_GetIntKind]; unfold value_GetInt, value_GetInt8, value_GetInt16, value_GetInt32,
      value_GetUInt8, value_GetUInt16, value_GetUInt32; rewrite ?(get_int64 X h v i s Cv D), ?(get_uint64 X h v i s Cv D); auto.
    now destruct (x_is64 X).
  Qed.
  Lemma string_same s t : denotes h i s -> s = SStr t -> value_GetString_content X h v = Ok (GVal (Some t)) /\ value_GetStringValue X h v = Ok (GVal t).
  Proof. intros D E. split; [now apply (get_string X h v i s Cv D)|now apply (get_stringvalue X h v i s Cv D)]. Qed.
  Lemma bool_same s : denotes h i s ->
    value_GetBool_content X h v = Ok (match s with
        | SBool b => GVal (Some b)
        | SStr t => match bool_of_text t with Some b => GVal (Some b) | None => GErr [EBoolText] end
        | _ => GErr [EType]
        end)
    /\ value_GetBoolValue X h v = Ok (match s with
        | SBool b => GVal b
        | SStr t => match bool_of_text t with Some b => GVal b | None => GErr [EBoolText] end
        | _ => GErr [EType]
        end).
  Proof. intros D. split; [exact (get_bool X h v i s Cv D)|exact (get_boolvalue X h v i s Cv D)]. Qed.
End V.

(** ** Two values *)
Section Two.
  Context (X : ext) (h : heap) (v : nat) (i : iface) (h' : heap) (v' : nat) (i' : iface).
  Hypothesis R : reachable X h.
  Hypothesis Hv : w_val (view h) v = Some i.
  Hypothesis R' : reachable X h'.
  Hypothesis Hv' : w_val (view h') v' = Some i'.

  (** The conclusion for objects that are neither errors nor lists of texts. *)
  Definition reads_alike : Prop :=
    ((forall z, SpecWorld.scalar_of (view h) i = Some (SInt KUInt z) -> z < 2 ^ 63) ->
       forall kd, agree (value_GetIntKind kd X h v) (value_GetIntKind kd X h' v')
         /\ agree (value_GetIntKindValue kd X h v) (value_GetIntKindValue kd X h' v'))
    /\ ((forall k f, SpecWorld.scalar_of (view h) i <> Some (SFlt k f)) ->
          agree (value_GetFloat64 X h v) (value_GetFloat64 X h' v')
          /\ agree (value_GetFloat64Value X h v) (value_GetFloat64Value X h' v'))
    /\ (forall k f, SpecWorld.scalar_of (view h) i = Some (SFlt k f) ->
          agree_on (on_option six_digits) (value_GetFloat64 X h v) (value_GetFloat64 X h' v')
          /\ agree_on six_digits (value_GetFloat64Value X h v) (value_GetFloat64Value X h' v'))
    /\ agree (value_GetString_content X h v) (value_GetString_content X h' v')
    /\ agree (value_GetStringValue X h v) (value_GetStringValue X h' v')
    /\ agree (value_GetBool_content X h v) (value_GetBool_content X h' v')
    /\ agree (value_GetBoolValue X h v) (value_GetBoolValue X h' v')
    /\ agree_on (on_option (same_keys h h')) (value_GetMap X h v) (value_GetMap X h' v')
    /\ agree_on (same_keys h h') (value_GetMapValue X h v) (value_GetMapValue X h' v')
    /\ agree_on (on_option (same_length h h')) (value_GetArray X h v) (value_GetArray X h' v')
    /\ agree_on (same_length h h') (value_GetArrayValue X h v) (value_GetArrayValue X h' v').

  Lemma alike_reads : reads_alike -> (forall t, i <> IErr t) -> (forall e, i <> IPErr (Some e)) ->
    (forall l, i <> IErrs l) -> (forall l, i <> IPErrs (Some l)) -> (forall l, i <> IStrs l) -> (forall l, i <> IPStrs (Some l)) ->
    reads_back X h v h' v' i.
  Proof.
    unfold reads_alike. intros A N1 N2 N3 N4 N5 N6.
    destruct i as [|s|t [p|]|m|[m|]|a|[a|]|v0|[v0|]|l|l|[l|]|[l|]|s|[[|s|? s]|]|tm|fn|[fn|]|[tm|]|nm [d|]]; try exact A; exfalso;
      [eapply N3|eapply N5|eapply N4|eapply N6|eapply N1|eapply N2|eapply N2]; reflexivity.
  Qed.

  Lemma null_alike : (forall s, SpecWorld.scalar_of (view h) i <> Some s) -> as_null X h v -> as_null X h' v' -> reads_alike.
  Proof.
    intros NS (A1 & (A2 & e2 & A3) & _ & (A4 & e4 & A5) & (A6 & e6 & A7) & (A8 & e8 & A9) & (A10 & e10 & A11))
      (B1 & (B2 & f2 & B3) & _ & (B4 & f4 & B5) & (B6 & f6 & B7) & (B8 & f8 & B9) & (B10 & f10 & B11)).
    unfold reads_alike. rewrite A2, A3, A4, A5, A6, A7, A8, A9, A10, A11, B2, B3, B4, B5, B6, B7, B8, B9, B10, B11.
    cbn [agree agree_on]. split; [|split; [eauto|split; [intros k f E; now apply NS in E|]]].
    - intros _ kd. destruct (ikind_eqb kd KUInt) eqn:Ku.
      { destruct kd; try discriminate. cbn. auto. }
      assert (NU : kd <> KUInt) by (intros ->; discriminate).
      destruct (A1 kd NU) as (-> & e & ->); destruct (B1 kd NU) as (-> & f & ->). cbn. eauto.
    - repeat split; eauto; exists None; split; auto; exact Logic.I.
  Qed.

  (** Scalars. *)
  Section Scalars.
    Context (s s' : scalar).
    Hypothesis D : denotes h i s.
    Hypothesis D' : denotes h' i' s'.
    Hypothesis Ps : proper_scalar (x_is64 X) s.
    Hypothesis C : comes_back (DScal s) (DScal s').

    Let Sc : SpecWorld.scalar_of (view h) i = Some s.
    Proof.
      destruct D as [->|(p & -> & E)]; cbn; auto. now rewrite E.
    Qed.

    Lemma scalars_containers :
      agree_on (on_option (same_keys h h')) (value_GetMap X h v) (value_GetMap X h' v')
      /\ agree_on (same_keys h h') (value_GetMapValue X h v) (value_GetMapValue X h' v')
      /\ agree_on (on_option (same_length h h')) (value_GetArray X h v) (value_GetArray X h' v')
      /\ agree_on (same_length h h') (value_GetArrayValue X h v) (value_GetArrayValue X h' v').
    Proof.
      destruct (scalar_no_map X h v i R Hv s D) as (e1 & -> & ->). destruct (scalar_no_array X h v i R Hv s D) as (e2 & -> & ->).
      destruct (scalar_no_map X h' v' i' R' Hv' s' D') as (e3 & -> & ->). destruct (scalar_no_array X h' v' i' R' Hv' s' D') as (e4 & -> & ->).
      cbn. eauto 9.
    Qed.

    Lemma scalars_same : s' = s -> (forall k f, s <> SFlt k f) -> reads_alike.
    Proof.
      intros E NF. assert (D2 : denotes h' i' s) by now rewrite <- E. unfold reads_alike. split; [|split; [|split; [|split; [|split; [|split; [|split; [|apply scalars_containers]]]]]]].
      - intros _ kd. unfold value_GetIntKindValue. rewrite (scalar_kind X h v i R Hv s kd D), (scalar_kind X h' v' i' R' Hv' s kd D2).
        destruct kd; cbn [rbind]; try (split; apply agree_same; reflexivity). cbn. auto.
      - intros _. destruct (scalar_float X h v i R Hv s D) as [-> ->]. destruct (scalar_float X h' v' i' R' Hv' s D2) as [-> ->].
        split; apply agree_same; reflexivity.
      - intros k f Q. rewrite Sc in Q. injection Q as Q. now destruct (NF k f).
      - destruct s as [t| | |]; [|destruct (scalar_no_string X h v i R Hv _ D) as [-> _]; [discriminate|];
          destruct (scalar_no_string X h' v' i' R' Hv' _ D2) as [-> _]; [discriminate|reflexivity]..].
        destruct (string_same X h v i R Hv _ t D eq_refl) as [-> _]. destruct (string_same X h' v' i' R' Hv' _ t D2 eq_refl) as [-> _]. reflexivity.
      - destruct s as [t| | |]; [|destruct (scalar_no_string X h v i R Hv _ D) as [_ ->]; [discriminate|];
          destruct (scalar_no_string X h' v' i' R' Hv' _ D2) as [_ ->]; [discriminate|reflexivity]..].
        destruct (string_same X h v i R Hv _ t D eq_refl) as [_ ->]. destruct (string_same X h' v' i' R' Hv' _ t D2 eq_refl) as [_ ->]. reflexivity.
      - destruct (bool_same X h v i R Hv s D) as [-> _]. destruct (bool_same X h' v' i' R' Hv' s D2) as [-> _]. now apply agree_same.
      - destruct (bool_same X h v i R Hv s D) as [_ ->]. destruct (bool_same X h' v' i' R' Hv' s D2) as [_ ->]. now apply agree_same.
    Qed.

    (** Neither strings nor booleans. *)
    Lemma scalars_numbers : (forall t, s <> SStr t) -> (forall t, s' <> SStr t) -> (forall b, s <> SBool b) -> (forall b, s' <> SBool b) ->
      agree (value_GetString_content X h v) (value_GetString_content X h' v')
      /\ agree (value_GetStringValue X h v) (value_GetStringValue X h' v')
      /\ agree (value_GetBool_content X h v) (value_GetBool_content X h' v')
      /\ agree (value_GetBoolValue X h v) (value_GetBoolValue X h' v').
    Proof.
      intros N1 N2 N3 N4. destruct (scalar_no_string X h v i R Hv s D N1) as [-> ->].
      destruct (scalar_no_string X h' v' i' R' Hv' s' D' N2) as [-> ->].
      destruct (scalar_no_bool X h v i R Hv s D N1 N3) as (e & -> & ->).
      destruct (scalar_no_bool X h' v' i' R' Hv' s' D' N2 N4) as (e' & -> & ->). cbn. eauto 9.
    Qed.

    Lemma scalars_int k k' z : s = SInt k z -> s' = SInt k' z -> fits (x_is64 X) k' z -> k' <> KUInt -> reads_alike.
    Proof.
      intros E E' F' NK. split; [|split; [|split]].
      - intros NB. assert (A : as_integer X h v z).
        { eapply scalar_integer; eauto; [now rewrite E in Ps|]. intros ->. rewrite E in Sc. specialize (NB z Sc). lia. }
        assert (A' : as_integer X h' v' z) by (eapply scalar_integer; eauto; congruence).
        intros kd. destruct (ikind_eqb kd KUInt) eqn:Ku.
        { destruct kd; try discriminate. cbn. auto. }
        assert (NU : kd <> KUInt) by (intros ->; discriminate).
        destruct (A kd NU) as [P1 P2]. destruct (A' kd NU) as [Q1 Q2]. rewrite fits_iff in *.
        destruct (in_range (x_is64 X) kd z).
        + destruct (P1 eq_refl) as [-> ->]. destruct (Q1 eq_refl) as [-> ->]. cbn. auto.
        + destruct (P2 ltac:(discriminate)) as (e & -> & ->). destruct (Q2 ltac:(discriminate)) as (e' & -> & ->). cbn. eauto.
      - intros _. destruct (scalar_float X h v i R Hv s D) as [-> ->]. destruct (scalar_float X h' v' i' R' Hv' s' D') as [-> ->].
        rewrite E, E'. cbn. auto.
      - intros k0 f Q. rewrite Sc, E in Q. discriminate.
      - destruct scalars_numbers as (B1 & B2 & B3 & B4); try (rewrite E; discriminate); try (rewrite E'; discriminate).
        pose proof scalars_containers. tauto.
    Qed.

    Lemma conv64 neg m e : normal_form F32 m e \/ normal_form F64 m e -> forall k, normal_form k m e ->
      exists m' e', scalar_float64 (SFlt k (FFin neg m e)) = GVal (Some (FFin neg m' e')) /\ units m' e' = units m e.
    Proof.
      intros _ k NF. destruct k; cbn [scalar_float64].
      - pose proof (emin_range F32 m e NF) as [M B].
        destruct (conv_exact F64 neg m e m e M B (f32_f64 _ _ (proj1 NF)) eq_refl) as (a' & b' & -> & N' & U). eauto.
      - eauto.
    Qed.

    Lemma scalars_flt k k' neg m e z f : s = SFlt k (FFin neg m e) -> s' = SFlt k' f ->
      nearest_integer (units m e * 10 ^ 6) (2 ^ 1074) z -> rounds_to k' neg z (10 ^ 6) (Some f) ->
      k' = F32 \/ rounds_to F32 neg z (10 ^ 6) None -> reads_alike.
    Proof.
      intros E E' Nz Rf Nk. split; [|split; [|split]].
      - intros _ kd. destruct (ikind_eqb kd KUInt) eqn:Ku.
        { destruct kd; try discriminate. cbn. auto. }
        assert (NU : kd <> KUInt) by (intros ->; discriminate).
        destruct (scalar_no_integer X h v i R Hv s D ltac:(rewrite E; discriminate) ltac:(rewrite E; discriminate) kd NU) as (e1 & -> & ->).
        destruct (scalar_no_integer X h' v' i' R' Hv' s' D' ltac:(rewrite E'; discriminate) ltac:(rewrite E'; discriminate) kd NU) as (e2 & -> & ->).
        cbn. eauto.
      - intros NF. destruct (NF k (FFin neg m e)). now rewrite Sc, E.
      - intros k0 f0 _. destruct (scalar_float X h v i R Hv s D) as [-> ->]. destruct (scalar_float X h' v' i' R' Hv' s' D') as [-> ->].
        pose proof Rf as Rf'. apply rounds_some in Rf' as (_ & a & b & -> & Nr).
        rewrite E in Ps. cbn [proper_scalar] in Ps. rewrite E, E'.
        destruct (conv64 neg m e) with (k := k) as (m1 & e1 & -> & U1); auto; [destruct k; auto|].
        destruct (conv64 neg a b) with (k := k') as (m2 & e2 & -> & U2); [destruct k'; [left|right]; apply Nr|apply Nr|].
        assert (SD : six_digits (FFin neg m1 e1) (FFin neg m2 e2)).
        { exists neg, m1, e1, m2, e2, z, k', a, b. rewrite U1. auto 8. }
        cbn [to_value agree_on]. split; [exists (Some (FFin neg m2 e2))|exists (FFin neg m2 e2)]; auto.
      - destruct scalars_numbers as (B1 & B2 & B3 & B4); try (rewrite E; discriminate); try (rewrite E'; discriminate).
        pose proof scalars_containers. tauto.
    Qed.

    Lemma scalars_alike : reads_alike.
    Proof.
      inversion C as [|b Q Q'|t Q Q'|k k' z N Nk Q Q'|k k' z N Nk Q Q'|k neg m e z f Nz Rf Q Q'|k neg m e z f Nz Rn Rf Q Q'| | | | ].
      - apply scalars_same; congruence.
      - apply scalars_same; congruence.
      - destruct (narrow_fits (x_is64 X) _ _ _ Nk (or_introl eq_refl)) as [Fk NK]. eapply scalars_int; eauto.
      - destruct (narrow_fits (x_is64 X) _ _ _ Nk (or_intror eq_refl)) as [Fk NK]. eapply scalars_int; eauto.
      - eapply scalars_flt; eauto.
      - eapply scalars_flt; eauto.
    Qed.
  End Scalars.

  Lemma maps_alike m m' : i = IMap m \/ i = IPMap (Some m) -> i' = IMap m' \/ i' = IPMap (Some m') -> same_keys h h' m m' -> reads_alike.
  Proof.
    intros E E' K. destruct (map_answers X h v i R Hv m E) as ([A1 A2] & (e1 & A3 & A4) & A5 & (e2 & A6 & A7)).
    destruct (map_answers X h' v' i' R' Hv' m' E') as ([B1 B2] & (f1 & B3 & B4) & B5 & (f2 & B6 & B7)).
    destruct (container_others X h v i R Hv m) as [[A8 A9] [A10 A11]]; [unfold container_of; tauto|].
    destruct (container_others X h' v' i' R' Hv' m') as [[B8 B9] [B10 B11]]; [unfold container_of; tauto|].
    unfold reads_alike. rewrite A1, A2, A3, A4, A6, A7, A8, A9, A10, A11, B1, B2, B3, B4, B6, B7, B8, B9, B10, B11. cbn [agree agree_on].
    split; [|split; [eauto|split; [intros k f Q; destruct E as [->| ->]; discriminate|]]].
    - intros _ kd. destruct (ikind_eqb kd KUInt) eqn:Ku.
      { destruct kd; try discriminate. cbn. auto. }
      assert (NU : kd <> KUInt) by (intros ->; discriminate).
      destruct (A5 kd NU) as (e & -> & ->); destruct (B5 kd NU) as (f & -> & ->). cbn. eauto.
    - repeat split; eauto.
  Qed.

  Lemma arrays_alike a a' : i = IArr a \/ i = IPArr (Some a) -> i' = IArr a' \/ i' = IPArr (Some a') -> same_length h h' a a' -> reads_alike.
  Proof.
    intros E E' K. destruct (array_answers X h v i R Hv a E) as ([A1 A2] & (e1 & A3 & A4) & A5 & (e2 & A6 & A7)).
    destruct (array_answers X h' v' i' R' Hv' a' E') as ([B1 B2] & (f1 & B3 & B4) & B5 & (f2 & B6 & B7)).
    destruct (container_others X h v i R Hv a) as [[A8 A9] [A10 A11]]; [unfold container_of; tauto|].
    destruct (container_others X h' v' i' R' Hv' a') as [[B8 B9] [B10 B11]]; [unfold container_of; tauto|].
    unfold reads_alike. rewrite A1, A2, A3, A4, A6, A7, A8, A9, A10, A11, B1, B2, B3, B4, B6, B7, B8, B9, B10, B11. cbn [agree agree_on].
    split; [|split; [eauto|split; [intros k f Q; destruct E as [->| ->]; discriminate|]]].
    - intros _ kd. destruct (ikind_eqb kd KUInt) eqn:Ku.
      { destruct kd; try discriminate. cbn. auto. }
      assert (NU : kd <> KUInt) by (intros ->; discriminate).
      destruct (A5 kd NU) as (e & -> & ->); destruct (B5 kd NU) as (f & -> & ->). cbn. eauto.
    - repeat split; eauto.
  Qed.

  Lemma values_read_back F F' d d' :
    rep_obj (x_typed_nil X) (view h) F i d -> rep_obj NoNils (view h') F' i' d' -> proper (x_is64 X) d -> comes_back d d' ->
    reads_back X h v h' v' i.
  Proof.
    intros Rp Rp' Pr C.
    assert (Oi : ok_iface h i) by (eapply (inv_val _ (reachable_Inv _ _ R)), val_cell; eauto using reachable_Inv).
    assert (Oi' : ok_iface h' i') by (eapply (inv_val _ (reachable_Inv _ _ R')), val_cell; eauto using reachable_Inv).
    assert (NotTexts : match d with DErr _ | DTexts _ => False | _ => True end -> (forall t, i <> IErr t) /\ (forall e, i <> IPErr (Some e)) /\
      (forall l, i <> IErrs l) /\ (forall l, i <> IPErrs (Some l)) /\ (forall l, i <> IStrs l) /\ (forall l, i <> IPStrs (Some l))).
    { intros Q. repeat split; intros y E; subst i; inversion Rp; subst; auto; try discriminate;
        match goal with H : _ \/ _ |- _ => destruct H; discriminate | _ => idtac end. }
    destruct d as [|s|t|l|ds|es].
    - destruct (NotTexts Logic.I) as (N1 & N2 & N3 & N4 & N5 & N6). apply alike_reads; auto.
      inversion C; subst. assert (Nil : nil_object i = true) by (inversion Rp; subst; auto).
      apply null_alike.
      + intros s. destruct i as [|?|? [?|]|?|[?|]|?|[?|]|?|[?|]|?|?|[?|]|[?|]|?|[?|]|?|?|[?|]|[?|]|? [?|]]; discriminate.
      + eapply read_null; eauto. unfold iface_IsNil. rewrite nil_object_IsNil in Nil. now rewrite Nil.
      + eapply read_null; eauto. inversion Rp'; subst; [reflexivity|discriminate].
    - destruct (NotTexts Logic.I) as (N1 & N2 & N3 & N4 & N5 & N6). apply alike_reads; auto.
      assert (exists s', d' = DScal s') as [s' ->] by (inversion C; eauto).
      eapply (scalars_alike s s'); eauto using rep_scalar. now inversion Pr.
    - inversion C; subst. assert (S : as_string X h' v' t).
      { eapply scalar_string; eauto. eapply rep_scalar; eauto. }
      inversion Rp as [| | | |?|? ? Es| | | | | |]; subst; [exact S|]. destruct Es as [->|[n ->]]; exact S.
    - inversion C; subst. destruct (rep_arr_inv h' NoNils F' i' _ Rp') as (a & la & Hi & _).
      assert (S : exists a, as_array X h' v' a /\ arr_Len h' a = Ok (Z.of_nat (length l))).
      { exists a. split; [apply (array_answers X h' v' i' R' Hv' a Hi)|].
        rewrite (rep_len X h' NoNils F' R' _ _ _ Rp' Hi). now rewrite map_length. }
      inversion Rp; subst; cbn [reads_back]; rewrite ?map_length; exact S.
    - destruct (NotTexts Logic.I) as (N1 & N2 & N3 & N4 & N5 & N6). apply alike_reads; auto. inversion C as [| | | | | | | | |? l' F2|]; subst.
      destruct (rep_arr_inv h _ F i _ Rp) as (a & la & Hi & _). destruct (rep_arr_inv h' NoNils F' i' _ Rp') as (a' & la' & Hi' & _).
      apply (arrays_alike a a' Hi Hi'). unfold same_length.
      rewrite (rep_len X h' NoNils F' R' _ _ _ Rp' Hi'), (rep_len X h _ F R _ _ _ Rp Hi).
      assert (L : length ds = length l') by (clear -F2; induction F2; cbn; congruence). now rewrite L.
    - destruct (NotTexts Logic.I) as (N1 & N2 & N3 & N4 & N5 & N6). apply alike_reads; auto. inversion C as [| | | | | | | | | |? l' F2]; subst.
      destruct (rep_map_inv h _ F i _ Rp) as (a & la & Hi & _). destruct (rep_map_inv h' NoNils F' i' _ Rp') as (a' & la' & Hi' & _).
      apply (maps_alike a a' Hi Hi'). unfold same_keys.
      rewrite (rep_keys X h' NoNils F' R' _ _ _ Rp' Hi'), (rep_keys X h _ F R _ _ _ Rp Hi).
      unfold dict_keys. f_equal. clear -F2. induction F2 as [|x y l l' [Q _] F2 IH]; cbn; congruence.
  Qed.
End Two.

(** ** Paths *)
Lemma comes_back_get l l' k d : Forall2 (fun kd kd' => fst kd = fst kd' /\ comes_back (snd kd) (snd kd')) l l' ->
  dict_get l k = Some d -> exists d', dict_get l' k = Some d' /\ comes_back d d'.
Proof.
  induction 1 as [|[a x] [b y] l l' [K C] _ IH]; cbn in *; [discriminate|]. subst b.
  destruct (str_eqb a k); auto. intros E. injection E as <-. eauto.
Qed.
Lemma comes_back_nth l l' n d : Forall2 comes_back l l' -> nth_error l n = Some d -> exists d', nth_error l' n = Some d' /\ comes_back d d'.
Proof. intros F. revert n. induction F; intros [|n] E; try discriminate; cbn in *; eauto. injection E as ->. eauto. Qed.

Lemma comes_back_at p : forall d d' e, comes_back d d' -> doc_at d p = Some e -> exists e', doc_at d' p = Some e' /\ comes_back e e'.
Proof.
  induction p as [|[k|n] p IH]; intros d d' e C E; cbn in *.
  - injection E as ->. eauto.
  - destruct d as [| | | | |l]; try discriminate. destruct (dict_get l k) as [x|] eqn:G; [|discriminate].
    inversion C as [| | | | | | | | | |? l' F2]; subst. destruct (comes_back_get _ _ _ _ F2 G) as (x' & -> & Cx). eauto.
  - destruct d as [| | | |l|]; try discriminate. destruct (nth_error l n) as [x|] eqn:G; [|discriminate].
    inversion C as [| | | | | | | | |? l' F2|]; subst. destruct (comes_back_nth _ _ _ _ F2 G) as (x' & -> & Cx). eauto.
Qed.

Lemma proper_at is64 p : forall d e, proper is64 d -> doc_at d p = Some e -> proper is64 e.
Proof.
  induction p as [|[k|n] p IH]; intros d e C E; cbn in *.
  - now injection E as ->.
  - destruct d as [| | | | |l]; try discriminate. destruct (dict_get l k) as [x|] eqn:G; [|discriminate].
    inversion C as [| | | | |? F2]; subst. apply dict_get_In in G. rewrite Forall_forall in F2. specialize (F2 _ G). eauto.
  - destruct d as [| | | |l|]; try discriminate. destruct (nth_error l n) as [x|] eqn:G; [|discriminate].
    inversion C as [| | | |? F2|]; subst. apply nth_error_In in G. rewrite Forall_forall in F2. specialize (F2 _ G). eauto.
Qed.

Section Walk.
  Context (X : ext) (h : heap) (tn : nils) (F : nat -> Prop).
  Hypothesis R : reachable X h.
  Hypothesis TN : forall i, rep_obj tn (view h) F i DNull -> iface_IsNil X i = true.
  Let w := view h.
  Let P : impl h w := view_impl _ (reachable_Inv _ _ R).
  Notation rep := (rep_obj tn w F).

  Lemma fetch_found i c d x v : rep i d -> container_of i c -> match x with PKey _ => exists es, d = DMap es | PIndex _ => exists ds, d = DArr ds end ->
    fetch h c x = Ok (Some v) -> exists j d', w_val w v = Some j /\ rep j d' /\ doc_at d [x] = Some d'.
  Proof.
    intros Rp Co Kd E. destruct x as [k|n]; destruct Kd as [es ->]; cbn [fetch doc_at] in *.
    - apply rep_map_inv in Rp as (m & d & Hi & Fm & Wm & Rm).
      assert (m = c) as -> by (destruct Co as [->|[->|[->| ->]]]; destruct Hi as [Q|Q]; congruence).
      rewrite (map_GetValue_impl h w P) in E by (now exists d). unfold map_at, w in E. rewrite Wm in E. cbn [the] in E.
      pose proof (RepFacts.rep_members_get _ _ _ _ _ k Rm) as Q.
      destruct (dict_get d k) as [o|]; cbn [the] in E; [|discriminate]. injection E as ->.
      destruct (dict_get es k) as [e|]; [|contradiction]. inversion Q as [|? j ? Fv Wv Rv]; subst. exists j, e. auto.
    - apply rep_arr_inv in Rp as (a & l & Hi & Fm & Wm & Rm).
      assert (a = c) as -> by (destruct Co as [->|[->|[->| ->]]]; destruct Hi as [Q|Q]; congruence).
      unfold arr_GetValues in E. apply (im_arr _ _ P) in Wm as [Wm _]. apply rd_arr_iff in Wm. rewrite Wm in E. cbn [rbind] in E.
      destruct (nth_error l n) as [o|] eqn:G; [|discriminate]. injection E as ->.
      apply rep_elems_F2 in Rm.
      assert (Q : exists e, nth_error es n = Some e /\ rep_value tn w F (Some v) e).
      { clear -Rm G. revert n G. induction Rm; intros [|n] G; try discriminate; cbn in *; eauto. injection G as ->. eauto. }
      destruct Q as (e & -> & Q). inversion Q as [|? j ? Fv Wv Rv]; subst. exists j, e. auto.
  Qed.

  Lemma enter_found v j d x c : w_val w v = Some j -> rep j d -> ok_iface h j -> enter X h v x = Ok (GVal (Some c)) ->
    container_of j c /\ match x with PKey _ => exists es, d = DMap es | PIndex _ => exists ds, d = DArr ds end.
  Proof.
    intros Wv Rp Oj E. pose proof (val_cell _ _ _ (reachable_Inv _ _ R) Wv) as Cv. apply rd_val_iff in Cv.
    assert (Z : iface_IsNil X j = false).
    { destruct (iface_IsNil X j) eqn:Z; auto. destruct x; cbn [enter] in E; [unfold value_GetMap in E|unfold value_GetArray in E];
        rewrite Cv in E; cbn [rbind] in E; rewrite Z in E; discriminate. }
    assert (ND : d <> DNull) by (intros ->; rewrite (TN _ Rp) in Z; discriminate).
    destruct x; cbn [enter] in E; [unfold value_GetMap in E|unfold value_GetArray in E];
      rewrite Cv in E; cbn [rbind] in E; rewrite Z in E; unfold container_of.
    - inversion Rp; subst; try congruence.
      + destruct H as [->| ->]; injection E as ->; eauto.
      + destruct H as [->| ->]; discriminate.
    - inversion Rp; subst; try congruence.
      + destruct H as [->| ->]; discriminate.
      + destruct H as [->| ->]; injection E as ->; eauto 7.
  Qed.

  Lemma go_found p : forall i c d x v, rep i d -> container_of i c ->
    match x with PKey _ => exists es, d = DMap es | PIndex _ => exists ds, d = DArr ds end ->
    go X h c x p = Ok (GVal (Some v)) -> exists j d', w_val w v = Some j /\ rep j d' /\ doc_at d (x :: p) = Some d'.
  Proof.
    induction p as [|y q IH]; intros i c d x v Rp Co Kd E; cbn [go] in E.
    - destruct (fetch h c x) as [o| | |] eqn:G; cbn [rbind] in E; try discriminate. injection E as ->.
      eapply fetch_found; eauto.
    - destruct (fetch h c x) as [[v1|]| | |] eqn:G; cbn [rbind] in E; try discriminate.
      destruct (fetch_found i c d x v1 Rp Co Kd G) as (j & d1 & Wv & Rv & At).
      destruct (enter X h v1 y) as [[[c1|]|]| | |] eqn:En; cbn [rbind] in E; try discriminate.
      assert (Oj : ok_iface h j) by (eapply (inv_val _ (reachable_Inv _ _ R)), val_cell; eauto using reachable_Inv).
      destruct (enter_found v1 j d1 y c1 Wv Rv Oj En) as [Co1 Kd1].
      destruct (IH j c1 d1 y v Rv Co1 Kd1 E) as (j' & d' & A & B & C). exists j', d'. split; auto. split; auto.
      destruct x; cbn [doc_at] in At |- *; destruct d; try discriminate;
        [destruct (dict_get l k)|destruct (nth_error l n)]; try discriminate; injection At as ->; exact C.
  Qed.
End Walk.

Lemma trip X h F m d b h' :
  reachable X h -> escape_ok X -> rep_obj (x_typed_nil X) (view h) F (IMap m) d ->
  proper (x_is64 X) d -> writable d -> reachable X h' ->
  exists n s m' h2,
    (forall fuel, (n <= fuel)%nat -> map_ToJSONString fuel X h m (Some b) = Ok (Some (b ++ s), []))
    /\ Parse X s h' = Ok (GVal (Some m'), h2)
    /\ same_keys h h2 m m'
    /\ forall k p v, go X h m (PKey k) p = Ok (GVal (Some v)) ->
         exists i v', w_val (view h) v = Some i /\ go X h2 m' (PKey k) p = Ok (GVal (Some v')) /\ reads_back X h v h2 v' i.
Proof.
  intros R E Rp Pr W R'. destruct (round_trip X h F m d b h' R E Rp Pr W R') as (n & s & d' & J & _ & C & h2 & m' & Pa & R2 & _ & Rp' & _).
  exists n, s, m', h2. split; auto. split; auto.
  assert (M : exists es, d = DMap es) by (inversion Rp; subst; eauto; [discriminate|destruct H; discriminate]).
  destruct M as [es ->].
  split.
  - inversion C as [| | | | | | | | | |? l' F2]; subst. unfold same_keys.
    rewrite (rep_keys X h2 NoNils _ R2 _ m' _ Rp') by auto. rewrite (rep_keys X h _ F R _ m _ Rp) by auto.
    unfold dict_keys. f_equal. clear -F2. induction F2 as [|x y l l' [Q _] F2 IH]; cbn; congruence.
  - intros k p v G.
    assert (TN : forall i, rep_obj (x_typed_nil X) (view h) F i DNull -> iface_IsNil X i = true).
    { intros i Ri. unfold iface_IsNil. assert (Nil : nil_object i = true) by (inversion Ri; subst; auto).
      rewrite nil_object_IsNil in Nil. now rewrite Nil. }
    destruct (go_found X h _ F R TN p (IMap m) m (DMap es) (PKey k) v Rp (co_map m) (ex_intro _ es eq_refl) G) as (i & e & Wv & Ri & At).
    destruct (comes_back_at _ _ _ _ C At) as (e' & At' & Ce).
    destruct (go_rep X h2 _ R2 p (IMap m') m' d' (PKey k) e' Rp' (co_map m') At') as (v' & j & G' & Wv' & Rj).
    exists i, v'. split; auto. split; auto.
    eapply (values_read_back X h v i h2 v' j); eauto. eapply proper_at; eauto.
Qed.
