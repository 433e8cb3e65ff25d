(** * Reading parsed texts with the getters *)
From Coq Require Import Ascii String List NArith ZArith Bool Lia.
From Verif Require Import GoStr StrLemmas GoNum GoFloat Heap Common ValueModel ArrayModel MapModel JsonModel ParserModel ReadModel
  SpecDict DictLemmas SpecNum NumLemmas SpecWorld Inv World Reach MapFacts GetterFacts GetterLift GetterMore ArrayGet SpecFloat FloatFacts SpecDoc RepFacts
  SpecText SpecToken SpecParse TreeParser ParseTop TokenFacts ParseFacts PosFacts TidyFacts TypedFacts ParseMore StableFacts RoundFacts RoundMore ShowFacts FloatGet SpecRead.
Import ListNotations.
Local Open Scope Z_scope.

(** ** The getters of one value *)
Section V.
  Context (X : ext) (h : heap) (v : nat) (i : iface).
  Hypothesis R : reachable X h.
  Hypothesis Hv : w_val (view h) v = Some i.
  Let I := reachable_Inv _ _ R.
  Let Cv : nth_error h v = Some (CVal i) := val_cell _ _ _ I Hv.
  Let Rd : rd_val h v = Ok i := proj2 (rd_val_iff _ _ _) Cv.

  Lemma read_null : iface_IsNil X i = true -> as_null X h v.
  Proof.
    intros Z.
    assert (S : value_GetInt64 X h v = Ok (GVal None)) by (unfold value_GetInt64; rewrite Rd; cbn [rbind]; now rewrite Z).
    assert (U : value_GetUInt64 X h v = Ok (GVal None)) by (unfold value_GetUInt64; rewrite Rd; cbn [rbind]; now rewrite Z).
    assert (F : value_GetFloat64 X h v = Ok (GVal None)) by (unfold value_GetFloat64; rewrite Rd; cbn [rbind]; now rewrite Z).
    assert (T : value_GetString X v h = Ok (GVal None, h)) by (unfold value_GetString; rewrite Rd; cbn [rbind]; now rewrite Z).
    assert (A : value_GetArray X h v = Ok (GVal None)) by (unfold value_GetArray; rewrite Rd; cbn [rbind]; now rewrite Z).
    split; [|split; [|split; [|split; [|split; [|split]]]]].
    - intros kd NU. assert (Q : value_GetIntKind kd X h v = Ok (GVal None)).
      { destruct kd; cbn [value_GetIntKind]; unfold value_GetInt, value_GetInt8, value_GetInt16,
          value_GetInt32, value_GetUInt8, value_GetUInt16, value_GetUInt32; rewrite ?S, ?U; auto;
          [now destruct (x_is64 X)|congruence]. }
      split; auto. unfold value_GetIntKindValue. rewrite Q. cbn. eauto.
    - split; auto. unfold value_GetFloat64Value. rewrite F. cbn. eauto.
    - unfold value_GetFloat32, value_GetFloat32Value. rewrite F. cbn. eauto.
    - split; [unfold value_GetBool_content, value_GetBool|unfold value_GetBoolValue]; rewrite Rd; cbn [rbind]; rewrite Z; cbn; eauto.
    - split; [unfold value_GetString_content|unfold value_GetStringValue]; rewrite T; cbn; eauto.
    - split; [unfold value_GetMap|unfold value_GetMapValue]; rewrite Rd; cbn [rbind]; rewrite Z; cbn; eauto.
    - split; auto. unfold value_GetArrayValue. rewrite A. cbn [rbind]. unfold value_IsNil. rewrite Rd. cbn [rbind]. rewrite Z. eauto.
  Qed.

  (** Present objects that are not a container. *)
  Section Scalar.
    Context (s : scalar).
    Hypothesis D : denotes h i s.

    Lemma scalar_no_map : no_map X h v.
    Proof.
      exists EType. unfold value_GetMap, value_GetMapValue. rewrite Rd. cbn [rbind]. rewrite (denotes_IsNil X _ _ _ D).
      destruct D as [->|(p & -> & _)]; auto.
    Qed.
    Lemma scalar_no_array : no_array X h v.
    Proof.
      assert (E : value_GetArray X h v = Ok (GErr [EType])).
      { unfold value_GetArray. rewrite Rd. cbn [rbind]. rewrite (denotes_IsNil X _ _ _ D).
        destruct D as [->|(p & -> & _)]; auto. }
      exists EType. unfold value_GetArrayValue. rewrite E. auto.
    Qed.
    Lemma scalar_no_bool : (forall t, s <> SStr t) -> (forall b, s <> SBool b) -> no_bool X h v.
    Proof.
      intros N1 N2. exists EType. rewrite (get_bool X h v i s Cv D), (get_boolvalue X h v i s Cv D).
      destruct s; auto; [now destruct (N1 s0)|now destruct (N2 b)].
    Qed.
    Lemma scalar_bool b : s = SBool b -> as_bool X h v b.
    Proof. intros E. unfold as_bool. rewrite (get_bool X h v i s Cv D), (get_boolvalue X h v i s Cv D), E. auto. Qed.
    Lemma scalar_string t : s = SStr t -> as_string X h v t.
    Proof.
      intros E. split; [now apply (get_string X h v i s Cv D)|now apply (get_stringvalue X h v i s Cv D)].
    Qed.
    Lemma int_kind_err kd e : kd <> KUInt -> value_GetInt64 X h v = Ok (GErr [e]) -> value_GetUInt64 X h v = Ok (GErr [e]) ->
      value_GetIntKind kd X h v = Ok (GErr [e]).
    Proof.
      intros NU S U. destruct kd; cbn [value_GetIntKind]; unfold value_GetInt, value_GetInt8, value_GetInt16,
          value_GetInt32, value_GetUInt8, value_GetUInt16, value_GetUInt32; rewrite ?S, ?U; auto;
          [now destruct (x_is64 X)|congruence].
    Qed.
    Lemma scalar_no_integer : (forall t, s <> SStr t) -> (forall k z, s <> SInt k z) -> no_integer X h v.
    Proof.
      intros N1 N2 kd NU. exists EType.
      assert (E : value_GetIntKind kd X h v = Ok (GErr [EType])).
      { apply int_kind_err; auto; [rewrite (get_int64 X h v i s Cv D)|rewrite (get_uint64 X h v i s Cv D)];
          destruct s as [t| |k z|]; auto; try (now destruct (N1 t)); now destruct (N2 k z). }
      unfold value_GetIntKindValue. rewrite E. auto.
    Qed.
    Lemma scalar_integer k z : s = SInt k z -> fits (x_is64 X) k z -> (k = KUInt -> z <= 2 ^ 63 - 1) -> as_integer X h v z.
    Proof.
      intros E F NK kd NU. rewrite E in D. rewrite fits_iff in F |- *.
      assert (Q : exists r, value_GetIntKind kd X h v = Ok r
        /\ if in_range (x_is64 X) kd z then r = GVal (Some z) else exists e, r = GErr [e]).
      { destruct (signed kd) eqn:Sg.
        - eapply value_GetInt_exact; eauto.
        - eapply value_GetUInt_exact; eauto. }
      destruct Q as (r & Er & Hr). unfold value_GetIntKindValue. rewrite Er. destruct (in_range (x_is64 X) kd z).
      - rewrite Hr. split; auto. congruence.
      - destruct Hr as (e & ->). split; [congruence|]. eauto.
    Qed.
    Lemma scalar_float : value_GetFloat64 X h v = Ok (scalar_float64 s)
      /\ value_GetFloat64Value X h v = Ok (to_value (scalar_float64 s)).
    Proof. unfold value_GetFloat64Value. rewrite (get_float64 X h v i s Cv D). auto. Qed.
  End Scalar.

  Lemma map_answers m : i = IMap m \/ i = IPMap (Some m) ->
    as_map X h v m /\ no_array X h v /\ no_integer X h v /\ no_bool X h v.
  Proof.
    intros E. assert (Z : iface_IsNil X i = false) by (destruct E as [->| ->]; reflexivity).
    assert (De : deref h i = Ok None) by (destruct E as [->| ->]; reflexivity).
    split; [|split; [|split]].
    - split; [unfold value_GetMap|unfold value_GetMapValue]; rewrite Rd; cbn [rbind]; rewrite Z; destruct E as [->| ->]; reflexivity.
    - exists EType. unfold value_GetArrayValue, value_GetArray; rewrite Rd; cbn [rbind]; rewrite Z; destruct E as [->| ->]; auto.
    - intros kd NU. exists EType.
      assert (Q : value_GetIntKind kd X h v = Ok (GErr [EType])).
      { apply int_kind_err; auto; [unfold value_GetInt64|unfold value_GetUInt64]; rewrite Rd; cbn [rbind]; rewrite Z;
          destruct E as [->| ->]; reflexivity. }
      unfold value_GetIntKindValue. rewrite Q. auto.
    - exists EType. unfold value_GetBool_content, value_GetBool, value_GetBoolValue. rewrite Rd. cbn [rbind]. rewrite Z, De.
      destruct E as [->| ->]; auto.
  Qed.

  Lemma array_answers a : i = IArr a \/ i = IPArr (Some a) ->
    as_array X h v a /\ no_map X h v /\ no_integer X h v /\ no_bool X h v.
  Proof.
    intros E. assert (Z : iface_IsNil X i = false).
    { unfold iface_IsNil. destruct E as [->| ->]; reflexivity. }
    assert (De : deref h i = Ok None) by (destruct E as [->| ->]; reflexivity).
    assert (A : value_GetArray X h v = Ok (GVal (Some a))).
    { unfold value_GetArray; rewrite Rd; cbn [rbind]; rewrite Z; destruct E as [->| ->]; auto. }
    split; [|split; [|split]].
    - split; auto. unfold value_GetArrayValue. rewrite A. cbn [rbind]. unfold value_IsNil. rewrite Rd. cbn [rbind]. now rewrite Z.
    - exists EType. unfold value_GetMapValue, value_GetMap; rewrite Rd; cbn [rbind]; rewrite Z; destruct E as [->| ->]; auto.
    - intros kd NU. exists EType.
      assert (Q : value_GetIntKind kd X h v = Ok (GErr [EType])).
      { apply int_kind_err; auto; [unfold value_GetInt64|unfold value_GetUInt64]; rewrite Rd; cbn [rbind]; rewrite Z;
          destruct E as [->| ->]; reflexivity. }
      unfold value_GetIntKindValue. rewrite Q. auto.
    - exists EType. unfold value_GetBool_content, value_GetBool, value_GetBoolValue. rewrite Rd. cbn [rbind]. rewrite Z, De.
      destruct E as [->| ->]; auto.
  Qed.
End V.

(** ** Objects that represent documents *)
Section Obj.
  Context (X : ext) (h : heap) (tn : nils) (F : nat -> Prop).
  Hypothesis R : reachable X h.
  Let w := view h.
  Let P : impl h w := view_impl _ (reachable_Inv _ _ R).
  Notation rep := (rep_obj tn w F).

  Lemma rep_map_inv i es : rep i (DMap es) ->
    exists m d, (i = IMap m \/ i = IPMap (Some m)) /\ F m /\ w_map w m = Some d /\ rep_members tn w F d es.
  Proof. intros Rp. inversion Rp; subst; eauto 9. Qed.
  Lemma rep_arr_inv i ds : rep i (DArr ds) ->
    exists a l, (i = IArr a \/ i = IPArr (Some a)) /\ F a /\ w_arr w a = Some l /\ rep_elems tn w F l ds.
  Proof. intros Rp. inversion Rp; subst; eauto 9. Qed.
  Lemma rep_scalar j s : rep j (DScal s) -> ok_iface h j -> denotes h j s.
  Proof.
    intros Rp O. destruct (deref_scalar h j s) as [_ D]; auto.
    inversion Rp; subst; cbn; auto.
  Qed.
  Lemma rep_keys j m es : rep j (DMap es) -> j = IMap m \/ j = IPMap (Some m) -> map_GetKeys h m = Ok (dict_keys es).
  Proof.
    intros Rp Hj. apply rep_map_inv in Rp as (m' & d0 & Hi & Fm & Wm & Rm).
    assert (m' = m) as -> by (destruct Hi as [Q|Q], Hj as [Q'|Q']; congruence).
    apply (im_map _ _ P) in Wm as (mo & Hm & D). destruct D as (Ek & _).
    unfold map_GetKeys. rewrite (proj2 (rd_map_iff _ _ _) Hm). cbn. rewrite Ek.
    unfold dict_keys. f_equal. eapply rep_members_keys; eauto.
  Qed.
  Lemma rep_len j a ds : rep j (DArr ds) -> j = IArr a \/ j = IPArr (Some a) -> arr_Len h a = Ok (Z.of_nat (length ds)).
  Proof.
    intros Rp Hj. apply rep_arr_inv in Rp as (a' & l & Hi & Fm & Wm & Rm).
    assert (a' = a) as -> by (destruct Hi as [Q|Q], Hj as [Q'|Q']; congruence).
    apply (im_arr _ _ P) in Wm as [Wm _]. apply rd_arr_iff in Wm. unfold arr_Len. rewrite Wm. cbn [rbind].
    apply rep_elems_F2 in Rm. assert (L : length l = length ds) by (clear -Rm; induction Rm; cbn; congruence). now rewrite L.
  Qed.
End Obj.

(** ** Along a path *)
Definition container_of (i : iface) (c : nat) : Prop :=
  i = IMap c \/ i = IPMap (Some c) \/ i = IArr c \/ i = IPArr (Some c).

Section Path.
  Context (X : ext) (h : heap) (F : nat -> Prop).
  Hypothesis R : reachable X h.
  Let w := view h.
  Let P : impl h w := view_impl _ (reachable_Inv _ _ R).
  Notation rep := (rep_obj NoNils w F).

  Lemma rep_some_inv o d : rep_value NoNils w F o d -> exists v j, o = Some v /\ F v /\ w_val w v = Some j /\ rep j d.
  Proof. intros Rp. inversion Rp as [Q|]; subst; [discriminate|eauto 9]. Qed.

  (** One step from a container that stands for a document. *)
  Lemma fetch_rep i c d x d' : rep i d -> container_of i c -> doc_at d [x] = Some d' ->
    exists v j, fetch h c x = Ok (Some v) /\ w_val w v = Some j /\ rep j d'.
  Proof.
    intros Rp Co At. destruct x as [k|n]; cbn in At.
    - destruct d as [| | | | |es]; try discriminate. destruct (dict_get es k) as [e|] eqn:G; [|discriminate].
      injection At as ->. apply rep_map_inv in Rp as (m & d & Hi & Fm & Wm & Rm).
      assert (m = c) as -> by (destruct Co as [->|[->|[->| ->]]]; destruct Hi as [Q|Q]; congruence).
      pose proof (RepFacts.rep_members_get _ _ _ _ _ k Rm) as Q. rewrite G in Q.
      destruct (dict_get d k) as [o|] eqn:Gd; [|contradiction]. apply rep_some_inv in Q as (v & j & -> & Fv & Wv & Rv).
      exists v, j. split; auto. cbn. rewrite (map_GetValue_impl h w P) by (now exists d). unfold map_at, w. rewrite Wm. cbn [the]. now rewrite Gd.
    - destruct d as [| | | |ds|]; try discriminate. destruct (nth_error ds n) as [e|] eqn:G; [|discriminate].
      injection At as ->. apply rep_arr_inv in Rp as (a & l & Hi & Fm & Wm & Rm).
      assert (a = c) as -> by (destruct Co as [->|[->|[->| ->]]]; destruct Hi as [Q|Q]; congruence).
      apply rep_elems_F2 in Rm.
      assert (Q : exists o, nth_error l n = Some o /\ rep_value NoNils w F o d').
      { clear -Rm G. revert n G. induction Rm; intros [|n] G; try discriminate; cbn in *; eauto. injection G as ->. eauto. }
      destruct Q as (o & No & Q). apply rep_some_inv in Q as (v & j & -> & Fv & Wv & Rv).
      exists v, j. split; auto. cbn. unfold arr_GetValues.
      apply (im_arr _ _ P) in Wm as [Wm _]. apply rd_arr_iff in Wm. rewrite Wm. cbn [rbind]. now rewrite No.
  Qed.

  Lemma enter_rep v j d x e : w_val w v = Some j -> rep j d -> doc_at d [x] = Some e ->
    exists c, enter X h v x = Ok (GVal (Some c)) /\ container_of j c.
  Proof.
    intros Wv Rp At. destruct x as [k|n]; cbn in At.
    - destruct d as [| | | | |es]; try discriminate.
      apply rep_map_inv in Rp as (m & d & Hi & Fm & Wm & Rm).
      exists m. split; [apply (map_answers X h v j R Wv m Hi)|]. unfold container_of. tauto.
    - destruct d as [| | | |ds|]; try discriminate.
      apply rep_arr_inv in Rp as (a & l & Hi & Fm & Wm & Rm).
      exists a. split; [apply (array_answers X h v j R Wv a Hi)|]. unfold container_of. tauto.
  Qed.

  Lemma doc_at_step d x p e : doc_at d (x :: p) = Some e -> exists d1, doc_at d [x] = Some d1 /\ doc_at d1 p = Some e.
  Proof.
    destruct x; cbn; destruct d; try discriminate; [destruct (dict_get l k)|destruct (nth_error l n)]; try discriminate; eauto.
  Qed.

  Lemma go_rep p : forall i c d x d', rep i d -> container_of i c -> doc_at d (x :: p) = Some d' ->
    exists v j, go X h c x p = Ok (GVal (Some v)) /\ w_val w v = Some j /\ rep j d'.
  Proof.
    induction p as [|y q IH]; intros i c d x d' Rp Co At.
    - destruct (fetch_rep _ _ _ _ _ Rp Co At) as (v & j & E & Wv & Rv). exists v, j. cbn. rewrite E. auto.
    - apply doc_at_step in At as (d1 & A1 & A2). destruct (fetch_rep _ _ _ _ _ Rp Co A1) as (v & j & E & Wv & Rv).
      pose proof A2 as A3. apply doc_at_step in A3 as (d2 & A3 & _).
      destruct (enter_rep v j d1 y d2 Wv Rv A3) as (c' & E' & Co').
      cbn [go]. rewrite E. cbn [rbind]. rewrite E'. cbn [rbind]. eapply IH; eauto.
  Qed.

  (** A key that is not there. *)
  Lemma fetch_missing i c d k es : rep i d -> container_of i c -> d = DMap es -> dict_get es k = None ->
    fetch h c (PKey k) = Ok None.
  Proof.
    intros Rp Co -> G. apply rep_map_inv in Rp as (m & d & Hi & Fm & Wm & Rm).
    assert (m = c) as -> by (destruct Co as [->|[->|[->| ->]]]; destruct Hi as [Q|Q]; congruence).
    pose proof (RepFacts.rep_members_get _ _ _ _ _ k Rm) as Q. rewrite G in Q.
    destruct (dict_get d k) as [o|] eqn:Gd; [contradiction|].
    cbn. rewrite (map_GetValue_impl h w P) by (now exists d). unfold map_at, w. rewrite Wm. cbn [the]. now rewrite Gd.
  Qed.

  Lemma go_missing p : forall i c d x k es, rep i d -> container_of i c -> doc_at d (x :: p) = Some (DMap es) -> dict_get es k = None ->
    go X h c x (p ++ [PKey k]) = Ok (GVal None).
  Proof.
    induction p as [|y q IH]; intros i c d x k es Rp Co At G.
    - destruct (fetch_rep _ _ _ _ _ Rp Co At) as (v & j & E & Wv & Rv). cbn [app go]. rewrite E. cbn [rbind].
      pose proof Rv as Rv'; apply rep_map_inv in Rv' as (m & d0 & Hi & Fm & Wm & Rm).
      cbn [enter]. destruct (map_answers X h v j R Wv m Hi) as [[A _] _]. rewrite A. cbn [rbind go].
      rewrite (fetch_missing j m (DMap es) k es); auto. unfold container_of. tauto.
    - apply doc_at_step in At as (d1 & A1 & A2). destruct (fetch_rep _ _ _ _ _ Rp Co A1) as (v & j & E & Wv & Rv).
      pose proof A2 as A3. apply doc_at_step in A3 as (d2 & A3 & _).
      destruct (enter_rep v j d1 y d2 Wv Rv A3) as (c' & E' & Co').
      cbn [app go]. rewrite E. cbn [rbind]. rewrite E'. cbn [rbind]. eapply IH; eauto.
  Qed.

End Path.

(** ** Texts *)
Lemma flt_of_Z_rounds z : Z.abs z <= 2 ^ 64 -> rounds_to F64 (z <? 0) (Z.abs z) 1 (Some (flt_of_Z F64 z)).
Proof.
  intros H. pose proof (rounds_to_round F64 (z <? 0) (Z.abs z) 1 ltac:(lia) ltac:(lia)) as Rd. unfold round_opt in Rd.
  unfold flt_of_Z, round_signed. destruct (round_pos F64 (Z.abs z) 1) as [[a b]|]; cbn [fst]; auto.
  exfalso. destruct Rd as [[O _]|(_ & ? & ? & O & _)]; [|discriminate]. unfold overflows in O. cbn [prec emax] in O.
  assert (2 ^ 65 <= 2 ^ 971) as H0 by (apply Z.pow_le_mono_r; lia).
  revert O H H0. generalize (2 ^ 971). change (2 ^ 53) with 9007199254740992. intros A O H H0. change (2 ^ 65) with (2 * 2 ^ 64) in H0. lia.
Qed.

Lemma narrow_fits is64 ks z k : narrowest ks z k -> ks = unsigned_types \/ ks = signed_types -> fits is64 k z /\ k <> KUInt.
Proof.
  intros (I & F & _) [->| ->]; cbn in I; destruct I as [<-|[<-|[<-|[<-|[]]]]]; split; try discriminate; exact F.
Qed.

Section Texts.
  Context (X : ext) (h0 h : heap) (l : jmembers) (m : nat) (d : doc) (x : pos) (p : list pos).
  Hypothesis R0 : reachable X h0.
  Hypothesis R : reachable X h.
  Hypothesis OK : members_ok false l.
  Hypothesis PL : plain_tokens l.
  Hypothesis Pa : parses X h0 (text_of (JMap l)) (GVal d).
  Context (F : nat -> Prop).
  Hypothesis Rp : rep_obj NoNils (view h) F (IMap m) d.

  Lemma co_map : container_of (IMap m) m. Proof. now left. Qed.

  Lemma at_present t : text_at (JMap l) (x :: p) = Some t ->
    exists v j d', go X h m x p = Ok (GVal (Some v)) /\ w_val (view h) v = Some j
      /\ doc_at d (x :: p) = Some d' /\ rep_obj NoNils (view h) F j d'.
  Proof.
    intros E. pose proof (parse_position X h0 l d (x :: p) R0 OK PL Pa) as Q. rewrite E in Q.
    destruct Q as (d' & A & _). destruct (go_rep X h F R p _ _ _ _ _ Rp co_map A) as (v & j & G & W & Rj). eauto 9.
  Qed.

  Lemma read_text t : text_at (JMap l) (x :: p) = Some t ->
    exists v, go X h m x p = Ok (GVal (Some v)) /\ answers X h v t.
  Proof.
    intros E. destruct (at_present t E) as (v & j & d' & G & W & A & Rj). exists v. split; auto.
    assert (Ok_j : ok_iface h j).
    { pose proof (reachable_Inv _ _ R) as Iv. eapply (inv_val _ Iv). eapply val_cell; eauto. }
    assert (D : forall s, doc_at d (x :: p) = Some (DScal s) -> denotes h j s).
    { intros s A'. rewrite A in A'. injection A' as ->. eapply rep_scalar; eauto. }
    destruct t as [u|b|l'|l']; cbn [answers].
    - split; [|split; [|split]].
      + intros b Sq. assert (Q : doc_at d (x :: p) = Some (DScal (SBool b))).
        { destruct (at_keyword X h0 l d (x :: p) u R0 OK PL Pa E) as (K1 & K2 & _). destruct b; auto. }
        apply D in Q. split; [|split; [|split]].
        * eapply scalar_bool; eauto.
        * eapply scalar_no_map; eauto.
        * eapply scalar_no_array; eauto.
        * eapply scalar_no_integer; eauto; discriminate.
      + intros Sq. assert (Q : doc_at d (x :: p) = Some DNull) by now apply (at_keyword X h0 l d (x :: p) u R0 OK PL Pa E).
        rewrite A in Q. injection Q as ->. apply read_null with (i := j); auto. inversion Rj; subst; [auto|discriminate].
      + intros z N.
        assert (Q : exists k, doc_at d (x :: p) = Some (DScal (SInt k z)) /\ fits (x_is64 X) k z /\ k <> KUInt /\ Z.abs z <= 2 ^ 64).
        { destruct N as [N|(t & Sq & N)].
          - destruct (at_nat X h0 l d (x :: p) u z R0 OK PL Pa E N) as (k & Nk & At). exists k. split; auto.
            destruct (narrow_fits (x_is64 X) _ _ _ Nk (or_introl eq_refl)) as [Fk NK]. split; auto. split; auto.
            apply fits_64 in Fk as [Fk _]. lia.
          - destruct (at_neg X h0 l d (x :: p) u t (- z) R0 OK PL Pa E Sq N) as (k & Nk & At). rewrite Z.opp_involutive in *. exists k. split; auto.
            destruct (narrow_fits (x_is64 X) _ _ _ Nk (or_intror eq_refl)) as [Fk NK]. split; auto. split; auto.
            apply fits_64 in Fk as [Fk _]. lia. }
        destruct Q as (k & Q & Fk & NK & Rg). apply D in Q. split; [|split; [|split; [|split]]].
        * eapply scalar_integer; eauto. congruence.
        * eapply scalar_no_map; eauto.
        * eapply scalar_no_array; eauto.
        * eapply scalar_no_bool; eauto; discriminate.
        * exists (flt_of_Z F64 z). split; [now apply flt_of_Z_rounds|].
          unfold as_float64. destruct (scalar_float X h v j R W _ Q) as [-> ->]. auto.
      + intros neg w n q Sq Fr.
        destruct (at_decimal X h0 l d (x :: p) u neg w n q R0 OK PL Pa E Sq Fr) as (k & f & Q & Rd & Nx). apply D in Q.
        split; [|split; [|split; [|split]]].
        * eapply scalar_no_map; eauto.
        * eapply scalar_no_array; eauto.
        * eapply scalar_no_integer; eauto; discriminate.
        * eapply scalar_no_bool; eauto; discriminate.
        * pose proof Rd as Rd'. apply rounds_some in Rd' as (_ & a & b & -> & Nr). pose proof (proj1 Nr) as NF.
          unfold as_float64. destruct (scalar_float X h v j R W _ Q) as [-> ->].
          destruct k; cbn [scalar_float64 to_value].
          -- pose proof (emin_range F32 a b NF) as [M B].
             destruct (conv_exact F64 neg a b a b M B (f32_f64 _ _ (proj1 NF)) eq_refl) as (a' & b' & -> & N' & U).
             exists a, b, a', b'. auto.
          -- exists a, b, a, b. destruct Nx as [Nx|Nx]; [discriminate|]. auto.
    - pose proof (D _ (at_string X h0 l d (x :: p) b R0 OK PL Pa E)) as Q. split; [|split].
      + eapply scalar_string; eauto.
      + eapply scalar_no_map; eauto.
      + eapply scalar_no_array; eauto.
    - destruct (at_array X h0 l d (x :: p) l' R0 OK PL Pa E) as (ds & Q & L). rewrite A in Q. injection Q as ->.
      pose proof Rj as Rj'. apply rep_arr_inv in Rj' as (a & la & Hi & _).
      destruct (array_answers X h v j R W a Hi) as (B1 & B2 & B3 & B4). split; auto.
      exists a. split; auto. rewrite <- L. eapply rep_len; eauto.
    - destruct (at_map X h0 l d (x :: p) l' R0 OK PL Pa E) as (es & Q & K). rewrite A in Q. injection Q as ->.
      pose proof Rj as Rj'. apply rep_map_inv in Rj' as (m' & dm & Hi & _).
      destruct (map_answers X h v j R W m' Hi) as (B1 & B2 & B3 & B4). split; auto.
      exists m'. split; auto. rewrite <- K. eapply rep_keys; eauto.
  Qed.

  Lemma read_missing l' k : text_at (JMap l) (x :: p) = Some (JMap l') -> last_of k (member_list l') = None ->
    go X h m x (p ++ [PKey k]) = Ok (GVal None).
  Proof.
    intros E N. destruct (at_map X h0 l d (x :: p) l' R0 OK PL Pa E) as (es & Q & K).
    eapply go_missing; eauto using co_map.
    pose proof (parse_position X h0 l d ((x :: p) ++ [PKey k]) R0 OK PL Pa) as B.
    rewrite text_at_app, E in B. cbn [text_at] in B. rewrite N in B. rewrite doc_at_app, Q in B. cbn [doc_at] in B.
    destruct (dict_get es k); congruence.
  Qed.
End Texts.

Lemma parsed X h l m h' : reachable X h -> members_ok false l -> Parse X (text_of (JMap l)) h = Ok (GVal (Some m), h') ->
  exists d, parses X h (text_of (JMap l)) (GVal d) /\ reachable X h' /\ rep_obj NoNils (view h') (new_in h) (IMap m) d.
Proof.
  intros R OK E. pose proof (parse_any X h l R OK) as P. destruct (outcome T0 l) as [d|e].
  - exists d. split; auto. destruct P as (h1 & m1 & P & R' & _ & D & _). rewrite E in P. injection P as -> ->. auto.
  - destruct P as (_ & h1 & P & _). congruence.
Qed.

Lemma read_parsed X h l m h' : reachable X h -> members_ok false l -> plain_tokens l ->
  Parse X (text_of (JMap l)) h = Ok (GVal (Some m), h') ->
  map_GetKeys h' m = Ok (first_keys (map fst (member_list l)))
  /\ (forall x p t, text_at (JMap l) (x :: p) = Some t ->
        exists v, go X h' m x p = Ok (GVal (Some v)) /\ answers X h' v t)
  /\ (forall k, last_of k (member_list l) = None -> go X h' m (PKey k) [] = Ok (GVal None))
  /\ (forall x p l' k, text_at (JMap l) (x :: p) = Some (JMap l') -> last_of k (member_list l') = None ->
        go X h' m x (p ++ [PKey k]) = Ok (GVal None)).
Proof.
  intros R OK PL E. destruct (parsed X h l m h' R OK E) as (d & Pa & R' & Rp).
  destruct (at_map X h l d [] l R OK PL Pa eq_refl) as (es & Q & K). cbn in Q. injection Q as ->.
  split; [|split; [|split]].
  - rewrite <- K. eapply (rep_keys X h' NoNils (new_in h) R' (IMap m)); eauto.
  - intros x p t. exact (read_text X h h' l m _ x p R R' OK PL Pa _ Rp t).
  - intros k N. assert (G : dict_get es k = None).
    { pose proof (parse_position X h l (DMap es) [PKey k] R OK PL Pa) as B. cbn [text_at doc_at] in B. rewrite N in B.
      destruct (dict_get es k); congruence. }
    cbn [go]. now rewrite (fetch_missing X h' (new_in h) R' _ m _ k es Rp (co_map m) eq_refl G).
  - intros x p l' k. exact (read_missing X h h' l m _ x p R R' OK PL Pa _ Rp l' k).
Qed.
