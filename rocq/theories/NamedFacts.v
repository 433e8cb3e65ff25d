(** * Methods by their names *)
From Coq Require Import Ascii String List NArith ZArith Bool Lia.
From Verif Require Import GoStr StrLemmas GoNum GoFloat Heap Common ValueModel ArrayModel MapModel GetterModel NamedModel MethodTable
  SpecDict DictLemmas SpecWorld SpecNum SpecNamed Inv World Reach MapFacts GetterFacts GetterFrame GetterLift GetterMore ObjFacts GetterProps ShareFacts.
Import ListNotations.
Local Open Scope string_scope.

(** ** Names *)
Lemma map_set_ptr t : method map_setters ("Set" ++ type_name t) = Some (St (Some (TPtr t)) false).
Proof. destruct t as [| |[]|[]]; reflexivity. Qed.
Lemma map_set_scal t : method map_setters ("Set" ++ type_name t ++ "Value") = Some (St (Some (TScal t)) true).
Proof. destruct t as [| |[]|[]]; reflexivity. Qed.
Lemma value_set_ptr t : method value_setters ("Set" ++ type_name t) = Some (St (Some (TPtr t)) false).
Proof. destruct t as [| |[]|[]]; reflexivity. Qed.
Lemma value_set_scal t : method value_setters ("Set" ++ type_name t ++ "Value") = Some (St (Some (TScal t)) false).
Proof. destruct t as [| |[]|[]]; reflexivity. Qed.
Lemma array_app_ptr t : method array_appenders ("Append" ++ type_name t) = Some (St (Some (TPtr t)) false).
Proof. destruct t as [| |[]|[]]; reflexivity. Qed.
Lemma array_app_scal t : method array_appenders ("Append" ++ type_name t ++ "Value") = Some (St (Some (TScal t)) false).
Proof. destruct t as [| |[]|[]]; reflexivity. Qed.
Lemma map_is_name X t : method (map_getters X) ("Is" ++ type_name t) = Some (GIs (pred_of t)).
Proof. destruct t as [| |[]|[]]; reflexivity. Qed.
Lemma value_is_name X t : method (value_getters X) ("Is" ++ type_name t) = Some (VIs (pred_of t)).
Proof. destruct t as [| |[]|[]]; reflexivity. Qed.
Lemma map_get_name X t : t <> TyInt KUInt -> method (map_getters X) ("Get" ++ type_name t) = Some (getter_of t).
Proof. destruct t as [| |[]|[]]; try reflexivity. congruence. Qed.
Lemma map_getv_name X t g : t <> TyInt KUInt -> value_getter_of t = Some g ->
  method (map_getters X) ("Get" ++ type_name t ++ "Value") = Some g.
Proof. destruct t as [| |[]|[]]; intros N [= <-]; try reflexivity. congruence. Qed.

Section S.
  Context (X : ext).

  Lemma plain_not_uint s : plain (x_is64 X) s -> stype_of s <> TyInt KUInt.
  Proof. destruct s as [| |[]|[]]; cbn; intros H E; try discriminate; contradiction. Qed.

  (** ** Values *)
  Lemma value_plain h v i s : nth_error h v = Some (CVal i) -> denotes h i s -> plain (x_is64 X) s ->
    value_get ("Get" ++ type_name (stype_of s)) X h v = Ok (answer_of s)
    /\ value_get ("Get" ++ type_name (stype_of s) ++ "Value") X h v = Ok (value_answer_of s)
    /\ forall t, exists b, value_get ("Is" ++ type_name t) X h v = Ok (AnsBool b) /\ (b = true <-> t = stype_of s).
  Proof.
    intros Hv D P.
    assert (Q : forall t, exists b, value_get ("Is" ++ type_name t) X h v = Ok (AnsBool b) /\ (b = true <-> t = stype_of s)).
    { intros t. unfold value_get. rewrite value_is_name. cbn [run_vgetter]. unfold value_is. rewrite (proj2 (rd_val_iff _ _ _) Hv).
      cbn [rbind rmap]. unfold rmap. cbn [rbind]. eexists. split; [reflexivity|].
      destruct (pred_of_spec t (stype_of s)) as [A B]. destruct (denotes_type X _ _ _ D) as [->| ->]; auto. }
    assert (K : forall g gv, method (value_getters X) ("Get" ++ type_name (stype_of s)) = Some g ->
       method (value_getters X) ("Get" ++ type_name (stype_of s) ++ "Value") = Some gv ->
       run_vgetter g X h v = Ok (answer_of s) -> run_vgetter gv X h v = Ok (value_answer_of s) ->
       value_get ("Get" ++ type_name (stype_of s)) X h v = Ok (answer_of s)
       /\ value_get ("Get" ++ type_name (stype_of s) ++ "Value") X h v = Ok (value_answer_of s)
       /\ forall t, exists b, value_get ("Is" ++ type_name t) X h v = Ok (AnsBool b) /\ (b = true <-> t = stype_of s)).
    { intros g gv E1 E2 R1 R2. unfold value_get at 1 2. rewrite E1, E2. auto. }
    destruct s as [t|b|k z|[|] f].
    - apply (K VString VStringV); try reflexivity; cbn [run_vgetter answer_of value_answer_of].
      + now rewrite (get_string X h v i _ Hv D t).
      + now rewrite (get_stringvalue X h v i _ Hv D t).
    - apply (K VBool VBoolV); try reflexivity; cbn [run_vgetter answer_of value_answer_of].
      + now rewrite (get_bool X h v i _ Hv D).
      + now rewrite (get_boolvalue X h v i _ Hv D).
    - assert (N : k <> KUInt) by (intros ->; exact P).
      assert (F : fits (x_is64 X) k z) by (destruct k; congruence || exact P).
      assert (G : value_GetIntKind k X h v = Ok (GVal (Some z))).
      { pose proof F as F'. apply fits_iff in F'.
        assert (G : exists r, value_GetIntKind k X h v = Ok r
          /\ if in_range (x_is64 X) k z then r = GVal (Some z) else exists e, r = GErr [e]).
        { destruct (signed k) eqn:Sg.
          - eapply value_GetInt_exact; eauto. intros E. rewrite E in N. congruence.
          - eapply value_GetUInt_exact; eauto. }
        destruct G as (r & G & C). rewrite F' in C. now rewrite G, C. }
      apply (K (VInt k) (VIntV k)); try (destruct k; try reflexivity; congruence);
        cbn [run_vgetter answer_of value_answer_of]; unfold value_GetIntKindValue; rewrite G; reflexivity.
    - destruct P.
    - apply (K VFloat64 VFloat64V); try reflexivity; cbn [run_vgetter answer_of value_answer_of];
        unfold value_GetFloat64Value; rewrite (get_float64 X h v i _ Hv D); reflexivity.
  Qed.

  Lemma denotes_obj h i s : reachable X h -> ok_object (view h) i -> scalar_of (view h) i = Some s -> denotes h i s.
  Proof.
    intros R O S. pose proof (reachable_Inv _ _ R) as I.
    destruct (deref_scalar h i s (ok_object_impl _ _ _ (view_impl _ I) O) S) as [_ D]. exact D.
  Qed.

  Lemma named_value h v s i name :
    reachable X h -> has (w_val (view h)) v -> plain (x_is64 X) s ->
    (i = IScal s /\ name = "Set" ++ type_name (stype_of s) ++ "Value"
     \/ exists p, i = IPtr (stype_of s) (Some p) /\ w_var (view h) p = Some s /\ name = "Set" ++ type_name (stype_of s)) ->
    exists e h', method value_setters name = Some e /\ st_type e = Some (static_type i)
      /\ run_call (value_set_call e v i) h = Ok (ODone, h') /\ reachable X h'
      /\ value_get ("Get" ++ type_name (stype_of s)) X h' v = Ok (answer_of s)
      /\ value_get ("Get" ++ type_name (stype_of s) ++ "Value") X h' v = Ok (value_answer_of s)
      /\ forall t, exists b, value_get ("Is" ++ type_name t) X h' v = Ok (AnsBool b) /\ (b = true <-> t = stype_of s).
  Proof.
    intros R Hv P H.
    assert (Q : exists e, method value_setters name = Some e /\ st_type e = Some (static_type i)
              /\ ok_object (view h) i /\ scalar_of (view h) i = Some s).
    { destruct H as [[-> ->]|(p & -> & V & ->)].
      - rewrite value_set_scal. eexists. repeat split; auto.
      - rewrite value_set_ptr. eexists. repeat split; auto. cbn. eauto. }
    destruct Q as (e & E1 & E2 & O & S).
    destruct (run_one _ _ (AValSetObject v i) R (conj Hv O)) as (h' & E & R' & P').
    exists e, h'. split; auto. split; auto. split; [exact E|]. split; auto.
    pose proof (reachable_Inv _ _ R') as I'. pose proof (view_impl _ I') as V'.
    destruct (impl_eq _ _ _ V' P') as (_ & Em & _ & Ev & Eq).
    assert (W : w_val (view h') v = Some i).
    { rewrite Ev. remember (view h) as w. cbn. unfold put. now rewrite Nat.eqb_refl. }
    assert (S' : scalar_of (view h') i = Some s).
    { rewrite <- S. clear - Eq. remember (view h) as w. remember (view h') as w2. cbn in Eq.
      destruct i as [|s0|t [p|]| | | | | | | | | | | | | | | | |]; cbn [scalar_of]; try reflexivity. now rewrite Eq. }
    apply (im_val _ _ V') in W. eapply value_plain; eauto.
    destruct (deref_scalar h' i s (inv_val h' I' _ _ W) S') as [_ D]. exact D.
  Qed.

  (** ** Maps *)
  Lemma named_map h m k s i name :
    reachable X h -> has (w_map (view h)) m -> plain (x_is64 X) s ->
    (i = IScal s /\ name = "Set" ++ type_name (stype_of s) ++ "Value"
     \/ exists p, i = IPtr (stype_of s) (Some p) /\ w_var (view h) p = Some s /\ name = "Set" ++ type_name (stype_of s)) ->
    exists e h', method map_setters name = Some e /\ st_type e = Some (static_type i)
      /\ run_call (map_set_call e m k i) h = Ok (ODone, h') /\ reachable X h'
      /\ map_get ("Get" ++ type_name (stype_of s)) X h' m k = Ok (answer_of s)
      /\ (stype_of s <> TyBool -> map_get ("Get" ++ type_name (stype_of s) ++ "Value") X h' m k = Ok (value_answer_of s))
      /\ (forall t, exists b, map_get ("Is" ++ type_name t) X h' m k = Ok (AnsBool b) /\ (b = true <-> t = stype_of s))
      /\ forall name2 m2 k2, has (w_map (view h)) m2 -> (m2, k2) <> (m, k) ->
           map_get name2 X h' m2 k2 = map_get name2 X h m2 k2.
  Proof.
    intros R Hm P H.
    assert (Q : exists e, method map_setters name = Some e /\ st_type e = Some (static_type i)
              /\ ok_call (view h) (map_set_call e m k i)
              /\ ((exists j, map_set_call e m k i = AMapSet m k j /\ scalar_of (view h) j = Some s)
                  \/ map_set_call e m k i = AMapSetScalarValue m k s)).
    { destruct H as [[-> ->]|(p & -> & V & ->)].
      - rewrite map_set_scal. eexists. split; [reflexivity|]. split; [reflexivity|]. split; [exact Hm|]. right. reflexivity.
      - rewrite map_set_ptr. eexists. split; [reflexivity|]. split; [reflexivity|].
        split; [split; [exact Hm|]; exists s; auto|]. left. eexists. split; [reflexivity|]. exact V. }
    destruct Q as (e & E1 & E2 & K & C).
    destruct (set_get X h m k s _ R K C) as (h' & E & R' & G & GV & F).
    { destruct s as [| |[]|[]]; exact P. }
    destruct (scalar_after_set X h m k s _ R K C) as (h2 & E' & _ & Hm' & SA).
    rewrite E in E'. injection E' as <-.
    destruct (scalar_predicates X h' m k s R' Hm' SA) as (PR & _).
    pose proof (plain_not_uint _ P) as NU.
    exists e, h'. do 4 (split; [assumption|]). split; [|split; [|split]].
    - unfold map_get. rewrite map_get_name by assumption. exact G.
    - intros NB. unfold map_get. destruct (value_getter_of (stype_of s)) as [g|] eqn:Eg.
      + rewrite (map_getv_name X _ g NU Eg). exact GV.
      + exfalso. destruct s as [| |[]|[]]; cbn in *; congruence.
    - intros t. destruct (PR t) as (b & B & Bi). exists b. split; [|exact Bi].
      unfold map_get. rewrite map_is_name. cbn [run_getter]. unfold rmap. now rewrite B.
    - intros n2 m2 k2 H2 N2. unfold map_get. destruct (method (map_getters X) n2); [|reflexivity]. now apply F.
  Qed.

  (** ** Arrays *)
  Lemma named_array h a l s i name :
    reachable X h -> w_arr (view h) a = Some l -> plain (x_is64 X) s ->
    (i = IScal s /\ name = "Append" ++ type_name (stype_of s) ++ "Value"
     \/ exists p, i = IPtr (stype_of s) (Some p) /\ w_var (view h) p = Some s /\ name = "Append" ++ type_name (stype_of s)) ->
    exists e h' v, method array_appenders name = Some e /\ st_type e = Some (static_type i)
      /\ run_call (array_append_call e a i) h = Ok (ODone, h') /\ reachable X h'
      /\ w_arr (view h') a = Some (l ++ [Some v])%list
      /\ value_get ("Get" ++ type_name (stype_of s)) X h' v = Ok (answer_of s)
      /\ value_get ("Get" ++ type_name (stype_of s) ++ "Value") X h' v = Ok (value_answer_of s)
      /\ forall t, exists b, value_get ("Is" ++ type_name t) X h' v = Ok (AnsBool b) /\ (b = true <-> t = stype_of s).
  Proof.
    intros R Ha P H.
    assert (Q : exists e, method array_appenders name = Some e /\ st_type e = Some (static_type i)
              /\ ok_object (view h) i /\ scalar_of (view h) i = Some s).
    { destruct H as [[-> ->]|(p & -> & V & ->)].
      - rewrite array_app_scal. eexists. repeat split; auto.
      - rewrite array_app_ptr. eexists. split; [reflexivity|]. split; [reflexivity|]. split; [exists s; auto|exact V]. }
    destruct Q as (e & E1 & E2 & O & S).
    destruct (run_one _ _ (AArrAppend a i) R (conj (ex_intro _ l Ha) O)) as (h' & E & R' & P').
    pose proof (reachable_Inv _ _ R') as I'. pose proof (view_impl _ I') as V'.
    destruct (impl_eq _ _ _ V' P') as (_ & Em & Ea & Ev & Eq).
    assert (W : w_val (view h') (w_next (view h)) = Some i).
    { rewrite Ev. remember (view h) as w. cbn. unfold put. now rewrite Nat.eqb_refl. }
    exists e, h', (w_next (view h)). split; [exact E1|]. split; [exact E2|]. split; [exact E|]. split; [exact R'|]. split.
    { rewrite Ea. remember (view h) as w. cbn. unfold put, arr_at. rewrite Nat.eqb_refl, Ha. reflexivity. }
    assert (S' : scalar_of (view h') i = Some s).
    { rewrite <- S. clear - Eq. remember (view h) as w. remember (view h') as w2. cbn in Eq.
      destruct i as [|s0|t [p|]| | | | | | | | | | | | | | | | |]; cbn [scalar_of]; try reflexivity. now rewrite Eq. }
    apply (im_val _ _ V') in W. eapply value_plain; eauto.
    destruct (deref_scalar h' i s (inv_val h' I' _ _ W) S') as [_ D]. exact D.
  Qed.
End S.

(** ** The tables are those of the code *)
Definition entry_eqb (a b : entry) : bool := String.eqb (fst a) (fst b) && N.eqb (snd a) (snd b).
Lemma entry_eqb_eq a b : entry_eqb a b = true -> a = b.
Proof.
  destruct a, b. unfold entry_eqb. cbn. intros H. apply andb_prop in H as [A B].
  apply String.eqb_eq in A. apply N.eqb_eq in B. now subst.
Qed.
Lemma existsb_In (l : list entry) e : existsb (entry_eqb e) l = true -> In e l.
Proof. intros H. apply existsb_exists in H as (x & I & E). apply entry_eqb_eq in E. now subst. Qed.

Lemma tables_cover (t1 t2 tbl : list entry) (others : list string) :
  forallb (fun e => existsb (entry_eqb e) t1 || existsb (entry_eqb e) t2
     || String.prefix "GetArrayOf" (fst e) || existsb (String.eqb (fst e)) others) tbl = true ->
  forallb (fun e => existsb (entry_eqb e) tbl) (t1 ++ t2) = true ->
  (forall e, In e tbl -> In e t1 \/ In e t2 \/ String.prefix "GetArrayOf" (fst e) = true \/ In (fst e) others)
  /\ forall e, In e t1 \/ In e t2 -> In e tbl.
Proof.
  intros A B. rewrite forallb_forall in A, B. split.
  - intros e I. specialize (A e I). apply orb_prop in A as [A|A]; [apply orb_prop in A as [A|A]; [apply orb_prop in A as [A|A]|]|].
    + left. now apply existsb_In.
    + right. left. now apply existsb_In.
    + auto.
    + do 3 right. apply existsb_exists in A as (x & Ix & E). apply String.eqb_eq in E. now subst.
  - intros e I. apply existsb_In, B. apply in_or_app. exact I.
Qed.

Lemma named_tables X :
  ((forall e, In e map_set -> In e (map fst map_setters) \/ In e (map fst (map_getters X))
      \/ String.prefix "GetArrayOf" (fst e) = true
      \/ In (fst e) ["IsNil"; "ToJSONString"; "GetKeys"; "GetRunes"; "RemoveKey"; "GetTime"; "GetTimeWithDecimalPlaces";
                     "Values"; "Clone"; "SetValue"])
   /\ forall e, In e (map fst map_setters) \/ In e (map fst (map_getters X)) -> In e map_set)
  /\ ((forall e, In e array_set -> In e (map fst array_appenders) \/ In e []
      \/ String.prefix "GetArrayOf" (fst e) = true
      \/ In (fst e) ["Clone"; "Len"; "SetValueAtIndex"; "RemoveValueAtIndex"; "ToJSONString"; "AppendValue";
                     "AppendValueValue"; "GetValues"; "GetStringValue"; "GetMap"])
   /\ forall e, In e (map fst array_appenders) \/ In e [] -> In e array_set)
  /\ ((forall e, In e value_set -> In e (map fst value_setters) \/ In e (map fst (value_getters X))
      \/ String.prefix "GetArrayOf" (fst e) = true
      \/ In (fst e) ["IsValueEqualToString"; "IsValueEqualToStringValue"; "GetRunes"; "GetTimeWithDecimalPlaces";
                     "GetTime"; "GetTimeValue"; "Clone"])
   /\ forall e, In e (map fst value_setters) \/ In e (map fst (value_getters X)) -> In e value_set).
Proof. split; [|split]; apply tables_cover; vm_compute; reflexivity. Qed.
