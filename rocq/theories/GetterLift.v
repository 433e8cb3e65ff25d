(** * Getter facts at the level of the API and the world *)
From Coq Require Import Ascii String List NArith ZArith Bool Lia.
From Verif Require Import GoStr StrLemmas GoNum GoFloat Heap Common ValueModel ArrayModel MapModel
  GetterModel SpecDict DictLemmas SpecWorld SpecNum NumLemmas Inv World Reach MapFacts GetterFacts GetterFrame.
Import ListNotations.
Local Open Scope Z_scope.

Lemma is_signed_iff k : is_signed k <-> signed k = true.
Proof. unfold is_signed. destruct k; cbn; split; intros H; auto; try discriminate; intuition discriminate. Qed.

Lemma fits_iff b k z : fits b k z <-> in_range b k z = true.
Proof.
  rewrite in_range_iff. unfold fits. rewrite is_signed_iff.
  destruct b, k; cbn [signed width int_min int_max];
  change (64 - 1) with 63; change (32 - 1) with 31; change (16 - 1) with 15; change (8 - 1) with 7;
    intuition (try congruence; try lia).
Qed.

Lemma fits_dec b k z : fits b k z \/ ~ fits b k z.
Proof. rewrite fits_iff. destruct (in_range b k z); [left|right]; congruence. Qed.

(** ** Lookups through any world the heap implements *)
Section W.
  Context (h : heap) (w : world).
  Hypothesis I : Inv h.
  Hypothesis P : impl h w.

  Lemma map_GetValue_impl m k : has (w_map w) m ->
    map_GetValue h m k = Ok (the None (dict_get (map_at w m) k)).
  Proof.
    intros Hm. destruct (has_map _ _ _ P Hm) as (mo & E & _ & _ & _ & T).
    unfold map_GetValue. rewrite (proj2 (rd_map_iff _ _ _) E). cbn [rbind]. now rewrite T.
  Qed.
  Lemma map_HasKey_impl m k : has (w_map w) m ->
    map_HasKey h m k = Ok (dict_has (map_at w m) k).
  Proof.
    intros Hm. destruct (has_map _ _ _ P Hm) as (mo & E & D).
    unfold map_HasKey. rewrite (proj2 (rd_map_iff _ _ _) E). cbn [rbind].
    now rewrite (has_key_dict _ _ _ _ D).
  Qed.
  Lemma impl_same_map w' m : impl h w' -> has (w_map w) m ->
    has (w_map w') m /\ map_at w' m = map_at w m.
  Proof.
    intros P' Hm. pose proof (has_map _ _ _ P Hm) as D.
    destruct (w_map w' m) as [d|] eqn:E.
    - split; [now exists d|]. unfold map_at. rewrite E. cbn.
      apply (im_map _ _ P') in E. eapply map_dict_fun; eauto.
    - apply (im_map _ _ P') in D. congruence.
  Qed.
  Lemma impl_same_val w' v i : impl h w' -> w_val w v = Some i -> w_val w' v = Some i.
  Proof. intros P' Hv. apply (im_val _ _ P'), (im_val _ _ P), Hv. Qed.
  Lemma impl_same_var w' v i : impl h w' -> w_var w v = Some i -> w_var w' v = Some i.
  Proof. intros P' Hv. apply (im_var _ _ P'), (im_var _ _ P), Hv. Qed.
  Lemma impl_same_arr w' v i : impl h w' -> w_arr w v = Some i -> w_arr w' v = Some i.
  Proof. intros P' Hv. apply (im_arr _ _ P'), (im_arr _ _ P), Hv. Qed.

  Lemma w_val_lt v i : w_val w v = Some i -> (v < w_next w)%nat.
  Proof. intros H. apply (im_val _ _ P) in H. rewrite (im_next _ _ P). eapply nth_error_lt; eauto. Qed.
  Lemma w_var_lt v i : w_var w v = Some i -> (v < w_next w)%nat.
  Proof. intros H. apply (im_var _ _ P) in H. rewrite (im_next _ _ P). eapply nth_error_lt; eauto. Qed.
End W.

(** Worlds that keep values, variables and arrays make agreeing heaps. *)
Lemma impl_agree h w h' w' :
  impl h w -> impl h' w' ->
  (forall v i, w_val w v = Some i -> w_val w' v = Some i) ->
  (forall v i, w_var w v = Some i -> w_var w' v = Some i) ->
  (forall v i, w_arr w v = Some i -> w_arr w' v = Some i) -> agree h h'.
Proof.
  intros P P' A B C. repeat split.
  - intros l i H. apply (im_val _ _ P') , A, (im_val _ _ P), H.
  - intros l i H. apply (im_var _ _ P') , B, (im_var _ _ P), H.
  - intros l i H N. apply (im_arr _ _ P') , C, (im_arr _ _ P). auto.
Qed.

Lemma frame_getter X h w h' w' g m k :
  Inv h -> impl h w -> Inv h' -> impl h' w' -> agree h h' ->
  has (w_map w) m -> has (w_map w') m ->
  dict_get (map_at w' m) k = dict_get (map_at w m) k ->
  run_getter g X h' m k = run_getter g X h m k.
Proof.
  intros I P I' P' A H H' E.
  eapply (run_getter_agree X h h' I A g m m k (the None (dict_get (map_at w m) k))).
  - rewrite (map_HasKey_impl h w P), (map_HasKey_impl h' w' P') by auto. unfold dict_has. now rewrite E.
  - now apply map_GetValue_impl.
  - rewrite <- E. now apply map_GetValue_impl.
  - destruct (dict_get (map_at w m) k) as [o|] eqn:G; [|exact Logic.I]. cbn [the].
    destruct (has_map _ _ _ P H) as (mo & _ & _ & Ha & _).
    pose proof (inv_arr _ I _ _ Ha) as F. rewrite Forall_forall in F. apply F.
    apply dict_get_In in G. unfold dict_values. change o with (snd (k, o)). now apply in_map.
Qed.

(** ** Setting a key disturbs no other key *)
Definition set_call (m : nat) (k : str) (c : api) : Prop :=
  (exists o, c = AMapSetValue m k o) \/ (exists i, c = AMapSet m k i)
  \/ (exists s, c = AMapSetScalarValue m k s).

Lemma set_frame X h c m k :
  reachable X h -> ok_call (view h) c -> set_call m k c ->
  exists h', run_call c h = Ok (ODone, h') /\ reachable X h'
    /\ forall g m2 k2, has (w_map (view h)) m2 -> (m2, k2) <> (m, k) ->
         run_getter g X h' m2 k2 = run_getter g X h m2 k2.
Proof.
  intros R K S. destruct (run_one _ _ _ R K) as (h' & E & R' & P').
  pose proof (reachable_Inv _ _ R) as I. pose proof (view_impl _ I) as P.
  exists h'. split; [|split; auto].
  { destruct S as [[o ->]|[[i ->]|[s ->]]]; exact E. }
  intros g m2 k2 H N.
  remember (view h) as w eqn:Ew. clear Ew. set (w' := snd (spec_call c w)) in *.
  assert (L : forall v i, w_val w v = Some i -> w_val w' v = Some i).
  { intros v i Hv. pose proof (w_val_lt _ _ P _ _ Hv) as Lt. unfold w'.
    destruct S as [[o ->]|[[j ->]|[s ->]]]; cbn; auto; unfold put.
    - destruct (Nat.eqb_spec v (w_next w)); [lia|exact Hv].
    - destruct (Nat.eqb_spec v (S (w_next w))); [lia|exact Hv]. }
  assert (L2 : forall v i, w_var w v = Some i -> w_var w' v = Some i).
  { intros v i Hv. pose proof (w_var_lt _ _ P _ _ Hv) as Lt. unfold w'.
    destruct S as [[o ->]|[[j ->]|[s ->]]]; cbn; auto; unfold put.
    destruct (Nat.eqb_spec v (w_next w)); [lia|exact Hv]. }
  assert (L3 : forall v i, w_arr w v = Some i -> w_arr w' v = Some i).
  { intros v i Hv. unfold w'. destruct S as [[o ->]|[[j ->]|[s ->]]]; cbn; auto. }
  assert (Q : exists o, w_map w' = put (w_map w) m (dict_set (map_at w m) k o)).
  { unfold w'. destruct S as [[o ->]|[[j ->]|[s ->]]]; cbn; eauto. }
  destruct Q as [o Q].
  assert (A : agree h h') by (eapply (impl_agree h w h' w'); eauto).
  eapply (frame_getter X h w h' w'); eauto using reachable_Inv.
  - rewrite Q. unfold has, put. destruct (Nat.eqb m2 m); eauto.
  - unfold map_at at 1. rewrite Q. unfold put. destruct (Nat.eqb_spec m2 m); [|reflexivity].
    subst m2. cbn [the]. rewrite dict_get_set. destruct (str_eqb_spec k k2); congruence.
Qed.

(** ** What is denoted after a set *)
Lemma scalar_after_set X h m k s c :
  reachable X h -> ok_call (view h) c ->
  (exists i, c = AMapSet m k i /\ scalar_of (view h) i = Some s) \/ c = AMapSetScalarValue m k s ->
  exists h', run_call c h = Ok (ODone, h') /\ reachable X h' /\ has (w_map (view h')) m
    /\ scalar_at (view h') m k = Some s.
Proof.
  intros R K S. destruct (run_one _ _ _ R K) as (h' & E & R' & P').
  pose proof (reachable_Inv _ _ R) as I. pose proof (view_impl _ I) as P.
  pose proof (reachable_Inv _ _ R') as I'. pose proof (view_impl _ I') as V'.
  exists h'. split; [destruct S as [(i & -> & _)| ->]; exact E|]. split; auto.
  remember (view h) as w eqn:Ew. clear Ew. remember (view h') as u eqn:Eu. clear Eu.
  set (w' := snd (spec_call c w)) in *.
  assert (Hm : has (w_map w') m).
  { unfold w', has. destruct S as [(i & -> & _)| ->]; cbn; unfold put; rewrite Nat.eqb_refl; eauto. }
  destruct (impl_same_map _ _ P' _ _ V' Hm) as [Hm' Em]. split; auto.
  unfold scalar_at, object_at. rewrite Em.
  destruct S as [(i & -> & Si)| ->]; unfold w', map_at; cbn; unfold put; rewrite Nat.eqb_refl; cbn [the];
    rewrite dict_get_set, str_eqb_refl.
  - assert (O : w_val u (w_next w) = Some i).
    { eapply impl_same_val; [exact P'|exact V'|]. cbn. unfold put. now rewrite Nat.eqb_refl. }
    rewrite O. destruct i as [| |t [p|]| | | | | | | | |[?|]|[?|]| |[?|]| | |[?|]|[?|]|? [?|]]; cbn in Si; try discriminate; auto.
    cbn [scalar_of]. eapply impl_same_var; [exact P'|exact V'|exact Si].
  - assert (O : w_val u (S (w_next w)) = Some (IPtr (stype_of s) (Some (w_next w)))).
    { eapply impl_same_val; [exact P'|exact V'|]. cbn. unfold put. now rewrite Nat.eqb_refl. }
    rewrite O. cbn [scalar_of]. eapply impl_same_var; [exact P'|exact V'|].
    cbn. unfold put. now rewrite Nat.eqb_refl.
Qed.

(** ** Getters on a scalar under a key *)
Section K.
  Context (X : ext) (h : heap) (m : nat) (k : str) (s : scalar).
  Hypothesis R : reachable X h.
  Hypothesis Hm : has (w_map (view h)) m.
  Hypothesis Hs : scalar_at (view h) m k = Some s.

  Lemma present : exists v i, nth_error h v = Some (CVal i) /\ denotes h i s
      /\ object_at (view h) m k = Some i
      /\ map_GetValue h m k = Ok (Some v)
      /\ forall A (nr : A) get, map_via nr get h m k = get v.
  Proof.
    pose proof (reachable_Inv _ _ R) as I.
    destruct (scalar_at_present h I m k s Hm Hs) as (v & i & Hv & _ & O & _ & D & G & Vi).
    exists v, i. auto.
  Qed.

  (** Integer getters on a stored integer. *)
  Lemma map_int_exact k0 z kd :
    s = SInt k0 z -> fits (x_is64 X) k0 z -> kd <> KUInt ->
    (is_signed kd -> k0 = KUInt -> z <= 2 ^ 63 - 1) ->
    (fits (x_is64 X) kd z -> map_GetIntKind kd X h m k = Ok (GVal (Some z))
                             /\ map_GetIntKindValue kd X h m k = Ok (GVal z))
    /\ (~ fits (x_is64 X) kd z ->
          exists e, map_GetIntKind kd X h m k = Ok (GErr [e])
                    /\ map_GetIntKindValue kd X h m k = Ok (GErr [e])).
  Proof.
    intros Es F NU U. destruct present as (v & i & Hv & D & _ & _ & Vi). rewrite Es in D.
    assert (G : exists r, value_GetIntKind kd X h v = Ok r
      /\ if in_range (x_is64 X) kd z then r = GVal (Some z) else exists e, r = GErr [e]).
    { apply fits_iff in F. destruct (signed kd) eqn:Sg.
      - eapply value_GetInt_exact; eauto. apply U. now apply is_signed_iff.
      - eapply value_GetUInt_exact; eauto. }
    assert (E1 : map_GetIntKind kd X h m k = value_GetIntKind kd X h v)
      by (destruct kd; try congruence; apply Vi).
    assert (E2 : map_GetIntKindValue kd X h m k = value_GetIntKindValue kd X h v)
      by (destruct kd; try congruence; apply Vi).
    rewrite E1, E2. unfold value_GetIntKindValue. destruct G as (r & -> & C). cbn [rbind].
    rewrite fits_iff. destruct (in_range (x_is64 X) kd z).
    - subst r. split; [auto|congruence].
    - destruct C as [e ->]. split; [discriminate|eauto].
  Qed.

  (** Signed getters on a string. *)
  Lemma map_int_text t kd :
    s = SStr t -> is_signed kd ->
    (forall z, signed_numeral t z -> fits (x_is64 X) kd z ->
       map_GetIntKind kd X h m k = Ok (GVal (Some z)) /\ map_GetIntKindValue kd X h m k = Ok (GVal z))
    /\ ((forall z, signed_numeral t z -> ~ fits (x_is64 X) kd z) ->
          exists e, map_GetIntKind kd X h m k = Ok (GErr [e]) /\ map_GetIntKindValue kd X h m k = Ok (GErr [e])).
  Proof.
    intros Es Sg. destruct present as (v & i & Hv & D & _ & _ & Vi). rewrite Es in D.
    assert (E1 : map_GetIntKind kd X h m k = value_GetIntKind kd X h v)
      by (destruct kd; try apply Vi; unfold is_signed in Sg; intuition discriminate).
    assert (E2 : map_GetIntKindValue kd X h m k = value_GetIntKindValue kd X h v)
      by (destruct kd; try apply Vi; unfold is_signed in Sg; intuition discriminate).
    rewrite E1, E2. unfold value_GetIntKindValue.
    pose proof (get_int64 X h v i _ Hv D) as G. cbn [scalar_int64] in G.
    assert (W : forall lo hi, (forall z, fits (x_is64 X) kd z <-> lo <= z <= hi) ->
                - 2 ^ 63 <= lo -> hi <= 2 ^ 63 - 1 ->
                value_GetIntKind kd X h v = (r <-r value_GetInt64 X h v ;; Ok (narrow lo hi r)) ->
      (forall z, signed_numeral t z -> fits (x_is64 X) kd z ->
       value_GetIntKind kd X h v = Ok (GVal (Some z)) /\ (r <-r value_GetIntKind kd X h v ;; Ok (to_value r)) = Ok (GVal z))
    /\ ((forall z, signed_numeral t z -> ~ fits (x_is64 X) kd z) ->
          exists e, value_GetIntKind kd X h v = Ok (GErr [e])
             /\ (r <-r value_GetIntKind kd X h v ;; Ok (to_value r)) = Ok (GErr [e]))).
    { intros lo hi Fi L1 L2 ->. rewrite G. cbn [rbind]. split.
      - intros z Nz Fz. apply Fi in Fz.
        rewrite (proj2 (parse_int_iff 64 t z ltac:(lia))) by (split; [auto|change (64 - 1) with 63; lia]).
        cbn [narrow]. destruct (Z.ltb_spec z lo); [lia|]. destruct (Z.ltb_spec hi z); [lia|]. auto.
      - intros Nf. destruct (parse_int 64 t) as [z|] eqn:E; [|cbn; eauto].
        apply parse_int_iff in E; [|lia]. destruct E as [Nz Rz]. specialize (Nf _ Nz). rewrite Fi in Nf.
        cbn [narrow]. destruct (Z.ltb_spec z lo); [cbn; eauto|]. destruct (Z.ltb_spec hi z); [cbn; eauto|]. lia. }
    assert (W64 : (forall z, fits (x_is64 X) kd z <-> - 2 ^ 63 <= z <= 2 ^ 63 - 1) ->
        value_GetIntKind kd X h v = value_GetInt64 X h v ->
      (forall z, signed_numeral t z -> fits (x_is64 X) kd z ->
       value_GetIntKind kd X h v = Ok (GVal (Some z)) /\ (r <-r value_GetIntKind kd X h v ;; Ok (to_value r)) = Ok (GVal z))
    /\ ((forall z, signed_numeral t z -> ~ fits (x_is64 X) kd z) ->
          exists e, value_GetIntKind kd X h v = Ok (GErr [e])
             /\ (r <-r value_GetIntKind kd X h v ;; Ok (to_value r)) = Ok (GErr [e]))).
    { intros Fi ->. rewrite G. cbn [rbind]. split.
      - intros z Nz Fz. apply Fi in Fz.
        rewrite (proj2 (parse_int_iff 64 t z ltac:(lia))) by (split; [auto|change (64 - 1) with 63; lia]).
        auto.
      - intros Nf. destruct (parse_int 64 t) as [z|] eqn:E; [|cbn; eauto].
        apply parse_int_iff in E; [|lia]. destruct E as [Nz Rz]. specialize (Nf _ Nz). rewrite Fi in Nf.
        change (64 - 1) with 63 in Rz. lia. }
    assert (FI : forall z, fits (x_is64 X) kd z <-> int_min (x_is64 X) kd <= z <= int_max (x_is64 X) kd).
    { intros z. now rewrite fits_iff, in_range_iff. }
    destruct kd; try (exfalso; unfold is_signed in Sg; intuition discriminate);
      cbn [value_GetIntKind] in *; try (apply W64; [exact FI|reflexivity]);
      try (eapply W; [exact FI| | |reflexivity]; ranges; lia).
    unfold value_GetInt in *. destruct (x_is64 X).
    - apply W64; [exact FI|reflexivity].
    - eapply W; [exact FI| | |reflexivity]; ranges; lia.
  Qed.

  (** Unsigned getters on a string. *)
  Lemma map_uint_text t kd :
    s = SStr t -> ~ is_signed kd -> kd <> KUInt ->
    (t = lit "NULL" -> map_GetIntKind kd X h m k = Ok (GVal None)
                       /\ map_GetIntKindValue kd X h m k = Ok (GErr [ENilValue]))
    /\ (forall z, numeral t z -> fits (x_is64 X) kd z ->
       map_GetIntKind kd X h m k = Ok (GVal (Some z)) /\ map_GetIntKindValue kd X h m k = Ok (GVal z))
    /\ (t <> lit "NULL" -> (forall z, numeral t z -> ~ fits (x_is64 X) kd z) ->
          exists e, map_GetIntKind kd X h m k = Ok (GErr [e]) /\ map_GetIntKindValue kd X h m k = Ok (GErr [e])).
  Proof.
    intros Es Sg NU. destruct present as (v & i & Hv & D & _ & _ & Vi). rewrite Es in D.
    rewrite is_signed_iff in Sg.
    assert (E1 : map_GetIntKind kd X h m k = value_GetIntKind kd X h v)
      by (destruct kd; try congruence; apply Vi).
    assert (E2 : map_GetIntKindValue kd X h m k = value_GetIntKindValue kd X h v)
      by (destruct kd; try congruence; apply Vi).
    rewrite E1, E2. unfold value_GetIntKindValue.
    pose proof (get_uint64 X h v i _ Hv D) as G. cbn [scalar_uint64] in G.
    set (hi := int_max (x_is64 X) kd).
    assert (Hh : 0 <= hi <= 2 ^ 64 - 1) by (unfold hi; destruct (x_is64 X), kd; ranges; lia).
    assert (FI : forall z, fits (x_is64 X) kd z <-> 0 <= z <= hi).
    { intros z. rewrite fits_iff, in_range_iff. unfold hi.
      destruct kd; cbn in Sg; try congruence; cbn [int_min]; reflexivity. }
    assert (E : exists r, value_GetIntKind kd X h v = Ok r
                /\ forall x, value_GetUInt64 X h v = Ok x ->
                   r = narrow 0 hi x \/ (hi = 2 ^ 64 - 1 /\ r = x)).
    { rewrite G. destruct kd; cbn in Sg; try congruence; cbn [value_GetIntKind];
        unfold value_GetUInt8, value_GetUInt16, value_GetUInt32; rewrite G; cbn [rbind];
        eexists; (split; [reflexivity|]); intros x Ex; inversion Ex; subst x; auto. }
    destruct E as (r & Er & Rx). specialize (Rx _ G). rewrite Er. cbn [rbind]. clear Er E1 E2 Vi.
    split; [|split].
    - intros ->. rewrite str_eqb_refl in Rx. destruct Rx as [->|[_ ->]]; auto.
    - intros z Nz Fz. apply FI in Fz.
      assert (NN : str_eqb t (lit "NULL") = false).
      { apply str_eqb_neq. intros ->. destruct Nz as (_ & Fo & _). inversion Fo. unfold is_digit, digit in *.
        cbn in *. lia. }
      rewrite NN, (proj2 (parse_uint_iff 64 t z)) in Rx by (split; [auto|lia]).
      destruct Rx as [->|[_ ->]]; auto. cbn [narrow].
      destruct (Z.ltb_spec z 0); [lia|]. destruct (Z.ltb_spec hi z); [lia|]. auto.
    - intros NN Nf. apply str_eqb_neq in NN. rewrite NN in Rx.
      destruct (parse_uint 64 t) as [z|] eqn:E.
      + apply parse_uint_iff in E as [Nz Rz]. specialize (Nf _ Nz). rewrite FI in Nf.
        pose proof (numeral_nonneg _ _ Nz). destruct Rx as [->|[Eh ->]].
        * cbn [narrow]. destruct (Z.ltb_spec z 0); [lia|]. destruct (Z.ltb_spec hi z); [cbn; eauto|lia].
        * lia.
      + destruct Rx as [->|[_ ->]]; cbn; eauto.
  Qed.

  Lemma bool_of_text_iff t b : bool_of_text t = Some b <->
    (b = true /\ (t = lit "1" \/ t = lit "true")) \/ (b = false /\ (t = lit "0" \/ t = lit "false")).
  Proof.
    unfold bool_of_text.
    destruct (str_eqb_spec t (lit "1")); [subst; cbn; split; [intros E; inversion E; auto|intros [[-> _]|[_ [H|H]]]; [auto|discriminate|discriminate]]|].
    destruct (str_eqb_spec t (lit "true")); [subst; cbn; split; [intros E; inversion E; auto|intros [[-> _]|[_ [H|H]]]; [auto|discriminate|discriminate]]|].
    destruct (str_eqb_spec t (lit "0")); [subst; cbn; split; [intros E; inversion E; auto|intros [[_ [H|H]]|[-> _]]; [discriminate|discriminate|auto]]|].
    destruct (str_eqb_spec t (lit "false")); [subst; cbn; split; [intros E; inversion E; auto|intros [[_ [H|H]]|[-> _]]; [discriminate|discriminate|auto]]|].
    cbn. split; [discriminate|tauto].
  Qed.

  (** GetBool on a string. *)
  Lemma map_bool_text t :
    s = SStr t ->
    ((t = lit "1" \/ t = lit "true") -> map_GetBool X h m k = Ok (GVal (Some true)))
    /\ ((t = lit "0" \/ t = lit "false") -> map_GetBool X h m k = Ok (GVal (Some false)))
    /\ (~ In t [lit "1"; lit "true"; lit "0"; lit "false"] ->
          exists e, map_GetBool X h m k = Ok (GErr [e])).
  Proof.
    intros Es. destruct present as (v & i & Hv & D & _ & _ & Vi). rewrite Es in D.
    unfold map_GetBool. rewrite Vi, (get_bool X h v i _ Hv D).
    repeat split.
    - intros H. assert (E : bool_of_text t = Some true) by (apply bool_of_text_iff; auto). now rewrite E.
    - intros H. assert (E : bool_of_text t = Some false) by (apply bool_of_text_iff; auto). now rewrite E.
    - intros H. destruct (bool_of_text t) as [b|] eqn:E; eauto.
      apply bool_of_text_iff in E. exfalso. apply H. cbn. destruct E as [[_ [->| ->]]|[_ [->| ->]]]; auto.
  Qed.

  (** Float64 of a stored integer or float. *)
  Lemma map_float64 :
    map_GetFloat64 X h m k = Ok (scalar_float64 s)
    /\ map_GetFloat64Value X h m k = Ok (to_value (scalar_float64 s)).
  Proof.
    destruct present as (v & i & Hv & D & _ & _ & Vi).
    unfold map_GetFloat64, map_GetFloat64Value. rewrite !Vi. unfold value_GetFloat64Value.
    rewrite (get_float64 X h v i _ Hv D). split; reflexivity.
  Qed.
  Lemma map_float32 :
    map_GetFloat32 X h m k =
      Ok (match scalar_float64 s with
          | GErr e => GErr e
          | GVal None => GVal None
          | GVal (Some f) => match narrow_float32 f with GVal g => GVal (Some g) | GErr e => GErr e end
          end).
  Proof.
    destruct present as (v & i & Hv & D & _ & _ & Vi).
    unfold map_GetFloat32. rewrite Vi. unfold value_GetFloat32.
    rewrite (get_float64 X h v i _ Hv D). reflexivity.
  Qed.
  Lemma map_string_panics : stype_of s <> TyStr ->
    map_GetString X h m k = Panic /\ map_GetStringValue X h m k = Panic.
  Proof.
    intros N. destruct present as (v & i & Hv & D & _ & _ & Vi).
    unfold map_GetString, map_GetStringValue. rewrite !Vi, (get_string_panics X h v i _ Hv D) by auto.
    split; auto. pose proof (get_string_panics X h v i _ Hv D N) as E.
    unfold value_GetString_content in E. unfold value_GetStringValue.
    destruct (value_GetString X v h) as [[[[p|]|] h']| | |]; cbn [rbind] in *; auto; try discriminate.
    destruct (rd_ptr h' p) as [[]| | |]; cbn in *; discriminate || auto.
  Qed.
  Lemma map_type : map_GetType X h m k = Ok (TScal (stype_of s)) \/ map_GetType X h m k = Ok (TPtr (stype_of s)).
  Proof.
    destruct present as (v & i & Hv & D & _ & _ & Vi).
    unfold map_GetType. rewrite Vi. unfold value_GetType. rewrite (proj2 (rd_val_iff _ _ _) Hv). cbn [rbind].
    destruct (denotes_type X _ _ _ D) as [->| ->]; auto.
  Qed.
  Lemma map_pred p : map_is p X h m k = Ok (p (TScal (stype_of s))) \/ map_is p X h m k = Ok (p (TPtr (stype_of s))).
  Proof.
    destruct present as (v & i & Hv & D & _ & _ & Vi).
    unfold map_is. rewrite Vi. unfold value_is. rewrite (proj2 (rd_val_iff _ _ _) Hv). cbn [rbind].
    destruct (denotes_type X _ _ _ D) as [->| ->]; auto.
  Qed.
End K.

(** The getter of the stored type returns the scalar. *)
Lemma map_same_type X h m k s :
  reachable X h -> has (w_map (view h)) m -> scalar_at (view h) m k = Some s ->
  match s with
  | SInt KUInt _ | SFlt F32 _ => False
  | SInt k0 z => fits (x_is64 X) k0 z
  | _ => True
  end ->
  run_getter (getter_of (stype_of s)) X h m k = Ok (answer_of s)
  /\ match value_getter_of (stype_of s) with
     | Some g => run_getter g X h m k = Ok (value_answer_of s)
     | None => True
     end.
Proof.
  intros R Hm Hs H. destruct (present X h m k s R Hm Hs) as (v & i & Hv & D & _ & _ & Vi).
  destruct s as [t|b|k0 z|[|] f]; cbn [stype_of getter_of value_getter_of run_getter].
  - unfold map_GetString, map_GetStringValue. rewrite !Vi, (get_string X h v i _ Hv D t) by auto.
    rewrite (get_stringvalue X h v i _ Hv D t) by auto. split; reflexivity.
  - unfold map_GetBool. rewrite Vi, (get_bool X h v i _ Hv D). split; reflexivity.
  - assert (N : k0 <> KUInt) by (intros ->; exact H).
    assert (F : fits (x_is64 X) k0 z) by (destruct k0; congruence || exact H).
    destruct (map_int_exact X h m k _ R Hm Hs k0 z k0) as [A _]; auto; try congruence.
    destruct (A F) as [-> ->]. split; reflexivity.
  - destruct H.
  - unfold map_GetFloat64, map_GetFloat64Value. rewrite !Vi. unfold value_GetFloat64Value.
    rewrite (get_float64 X h v i _ Hv D). split; reflexivity.
Qed.

