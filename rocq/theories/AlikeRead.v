(** * Reading two heaps with the same content *)
From Coq Require Import Ascii String List NArith ZArith Bool Lia.
From Verif Require Import GoStr StrLemmas GoNum GoFloat Heap Common ValueModel ArrayModel MapModel JsonModel ParserModel
  GetterModel NamedModel PtrModel PtrListModel RunesModel TimeModel SpecDict DictLemmas SpecWorld Inv World SpecAlike ClientModel AlikeFacts.
Import ListNotations.

Lemma F2_nth_error p l l' n : Forall2 (same_handle p) l l' -> entry_rel p (nth_error l n) (nth_error l' n).
Proof. intros H. revert n. induction H; intros [|n]; cbn; auto. Qed.

Lemma F2_length {A B} (R : A -> B -> Prop) l l' : Forall2 R l l' -> length l = length l'.
Proof. induction 1; cbn; auto. Qed.

(** ** Getters that may allocate *)

Lemma value_GetString_rel X p v w : In (v, w) p ->
  mrel p (fun q => grel (same_handle q)) (value_GetString X v) (value_GetString X w).
Proof.
  intros L q h h' I H. unfold value_GetString.
  eapply qrel_bind; [apply (rd_val_rel q h h' H); auto|]. intros i j R.
  rewrite (held_isnil _ _ _ X R). pose proof (grows_refl _ _ _ H) as G.
  destruct (iface_IsNil X j); [cbn; eauto|].
  destruct R as [i N|t a b K| | | | | |]; try exact Logic.I.
  - destruct i as [|[s| | |]|[| | |] [?|]| | | | | | | | | | | | | | | | |]; try exact Logic.I; try discriminate.
    + assert (Z : mrel q (fun q => grel (same_handle q)) (bind (alloc (CPtr (SStr s))) (fun p => ret (GVal (Some p))))
                       (bind (alloc (CPtr (SStr s))) (fun p => ret (GVal (Some p))))).
      { eapply mrel_bind; [apply alloc_rel; reflexivity|]. intros r a b I1 K. apply mrel_ret. intros r' I2. cbn. auto. }
      exact (Z q h h' (incl_refl _) H).
    + cbn. eauto.
  - destruct t; try exact Logic.I. cbn. eauto.
Qed.

Lemma value_GetBool_rel X p v w : In (v, w) p ->
  mrel p (fun q => grel (same_handle q)) (value_GetBool X v) (value_GetBool X w).
Proof.
  intros L q h h' I H. unfold value_GetBool.
  eapply qrel_bind; [apply (rd_val_rel q h h' H); auto|]. intros i j R.
  rewrite (held_isnil _ _ _ X R). pose proof (grows_refl _ _ _ H) as G.
  destruct (iface_IsNil X j); [cbn; eauto|].
  assert (Z : forall b, mrel q (fun q => grel (same_handle q)) (bind (alloc (CPtr (SBool b))) (fun p => ret (GVal (Some p))))
                       (bind (alloc (CPtr (SBool b))) (fun p => ret (GVal (Some p))))).
  { intros b0. eapply mrel_bind; [apply alloc_rel; reflexivity|]. intros r a b I1 K. apply mrel_ret. intros r' I2. cbn. auto. }
  assert (Y : forall i j, same_held q i j ->
     qrel (fun s t => exists q', grows q h h' q' (snd s) (snd t) /\ grel (same_handle q') (fst s) (fst t))
      (o <-r deref h i ;;
       match o with
       | Some (SStr s) => match bool_of_text s with
                          | Some b => bind (alloc (CPtr (SBool b))) (fun p0 => ret (GVal (Some p0))) h
                          | None => Ok (GErr [EBoolText], h)
                          end
       | _ => Stuck
       end)
      (o <-r deref h' j ;;
       match o with
       | Some (SStr s) => match bool_of_text s with
                          | Some b => bind (alloc (CPtr (SBool b))) (fun p0 => ret (GVal (Some p0))) h'
                          | None => Ok (GErr [EBoolText], h')
                          end
       | _ => Stuck
       end)).
  { intros a b R'. eapply qrel_bind; [apply (deref_rel q h h' H); eauto|]. intros s s' ->.
    destruct s' as [[s'| | |]|]; try exact Logic.I. destruct (bool_of_text s') as [c|].
    - exact (Z c q h h' (incl_refl _) H).
    - cbn. eauto. }
  pose proof R as R0. destruct R as [i N|t a b K| | | | | |]; try (cbn; eauto; fail).
  - destruct i as [|[s| | |]|[| | |] [?|]| | | | | | | | | | | | | | | | |]; try discriminate; try (cbn; eauto; fail);
      try (apply Y; exact R0). exact (Z _ q h h' (incl_refl _) H).
  - destruct t; try (cbn; eauto; fail). apply Y; auto.
Qed.

Section Read.
  Context (X : ext) (NA : prints_no_address X).
  Context (p : links) (h h' : heap) (H : hrel p h h').
  Let rd_val_r := rd_val_rel p h h' H.
  Let rd_arr_r := rd_arr_rel p h h' H.

  Ltac start := eapply qrel_bind; [apply rd_val_r; eassumption|];
    let i := fresh "i" in let j := fresh "j" in let R := fresh "R" in intros i j R;
    try rewrite (held_isnil _ _ _ X R); try rewrite (held_gtype _ _ _ X R); try rewrite (held_nil _ _ _ R);
    try match goal with |- context [iface_IsNil X j] => destruct (iface_IsNil X j) eqn:? end; cbn [qrel grel same_handle]; auto.

  Lemma conv_held_rel i j : same_held p i j -> qrel eq (conv_held X h i) (conv_held X h' j).
  Proof.
    intros R. pose proof (deref_rel p h h' H _ _ R) as D. unfold conv_held.
    rewrite (held_gtype _ _ _ X R). pose proof (held_nil _ _ _ R) as Nl. pose proof (NA _ _ _ R) as Sp.
    destruct (common_GetType X j); try exact (eq_refl _);
      try (eapply qrel_bind; [exact D|]; intros s s' ->; apply qrel_eq).
    - destruct R as [i N| | | | | | |]; try exact Logic.I.
      + destruct i; try exact Logic.I. discriminate.
      + eapply qrel_bind; [apply rd_val_r; eauto|]. intros x y Rx. cbn. now rewrite (NA _ _ _ Rx).
    - destruct R as [i N| | | | | | |]; try exact Logic.I.
      + destruct i as [| | | | | | | |[?|]| | | | | | | | | | |]; try exact Logic.I. discriminate.
      + eapply qrel_bind; [apply rd_val_r; eauto|]. intros x y Rx. cbn. now rewrite (NA _ _ _ Rx).
    - destruct R; try exact Logic.I. apply qrel_eq.
    - destruct R; try exact Logic.I. apply qrel_eq.
    - destruct R; try exact Logic.I. apply qrel_eq.
    - rewrite Nl, Sp. apply qrel_eq.
  Qed.
  Lemma unwrap_rel i j : same_held p i j ->
    qrel (same_held p) (match i with IVal v | IPVal (Some v) => rd_val h v | _ => Ok i end)
                       (match j with IVal v | IPVal (Some v) => rd_val h' v | _ => Ok j end).
  Proof.
    intros R. pose proof R as R0. destruct R as [i N| | | | | | |]; try exact R0; try (apply rd_val_r; assumption).
    destruct i as [| | | | | | | |[?|]| | | | | | | | | | |]; try exact R0; discriminate.
  Qed.
  Lemma conv_string_rel i j : same_held p i j -> qrel eq (conv_string X h i) (conv_string X h' j).
  Proof.
    intros R. unfold conv_string. rewrite (held_nil _ _ _ R). destruct (common_IsNil j); [cbn; auto|].
    eapply qrel_bind; [apply unwrap_rel; eauto|]. intros x y Rx. now apply conv_held_rel.
  Qed.

  Lemma value_GetInt64_rel v w : In (v, w) p -> qrel eq (value_GetInt64 X h v) (value_GetInt64 X h' w).
  Proof.
    intros L. unfold value_GetInt64. start.
    assert (Y : forall a b, same_held p a b -> qrel eq
        (o <-r deref h a ;; Ok (match o with Some s => scalar_int64 s | None => GErr [EType] end))
        (o <-r deref h' b ;; Ok (match o with Some s => scalar_int64 s | None => GErr [EType] end))).
    { intros a b R'. eapply qrel_bind; [apply (deref_rel p h h' H); eauto|]. intros s s' ->. apply qrel_eq. }
    pose proof R as R0. destruct R as [i N| | | | | | |]; try (apply Y; exact R0);
      try (eapply qrel_bind; [apply conv_string_rel; apply sh_val; eassumption|]; intros s s' ->; apply qrel_eq).
    destruct i as [| | | | | | | |[?|]| | | | | | | | | | |]; try (apply Y; exact R0); discriminate.
  Qed.
  Lemma value_GetIntKind_rel k v w : In (v, w) p -> qrel eq (value_GetIntKind k X h v) (value_GetIntKind k X h' w).
  Proof.
    intros L. pose proof (value_GetInt64_rel _ _ L) as A. pose proof (value_GetUInt64_rel X p h h' H _ _ L) as B.
    apply qrel_eq_inv in A. apply qrel_eq_inv in B.
    unfold value_GetIntKind, value_GetInt, value_GetInt8, value_GetInt16, value_GetInt32, value_GetUInt8, value_GetUInt16, value_GetUInt32.
    rewrite A, B. apply qrel_eq.
  Qed.
  Lemma value_GetIntKindValue_rel k v w : In (v, w) p -> qrel eq (value_GetIntKindValue k X h v) (value_GetIntKindValue k X h' w).
  Proof.
    intros L. unfold value_GetIntKindValue. eapply qrel_bind; [apply value_GetIntKind_rel; eauto|].
    intros s s' ->. apply qrel_eq.
  Qed.

  Lemma value_GetStringValue_rel v w : In (v, w) p -> qrel eq (value_GetStringValue X h v) (value_GetStringValue X h' w).
  Proof.
    intros L. unfold value_GetStringValue.
    eapply qrel_bind; [apply (value_GetString_rel X p v w L p h h' (incl_refl _) H)|].
    intros [r k] [r' k'] (q & G & R). cbn in G, R. destruct r as [[a|]|e], r' as [[b|]|e']; cbn in R; try tauto; subst; cbn; auto.
    eapply qrel_bind; [apply (rd_ptr_rel q _ _ (gr_rel _ _ _ _ _ _ G)); eauto|]. intros s s' ->. apply qrel_eq.
  Qed.
  Lemma value_GetString_content_rel v w : In (v, w) p ->
    qrel eq (value_GetString_content X h v) (value_GetString_content X h' w).
  Proof.
    intros L. unfold value_GetString_content.
    eapply qrel_bind; [apply (value_GetString_rel X p v w L p h h' (incl_refl _) H)|].
    intros [r k] [r' k'] (q & G & R). cbn in G, R. destruct r as [[a|]|e], r' as [[b|]|e']; cbn in R; try tauto; subst; cbn; auto.
    eapply qrel_bind; [apply (rd_ptr_rel q _ _ (gr_rel _ _ _ _ _ _ G)); eauto|]. intros s s' ->. apply qrel_eq.
  Qed.
  Lemma value_GetBool_content_rel v w : In (v, w) p ->
    qrel eq (value_GetBool_content X h v) (value_GetBool_content X h' w).
  Proof.
    intros L. unfold value_GetBool_content.
    eapply qrel_bind; [apply (value_GetBool_rel X p v w L p h h' (incl_refl _) H)|].
    intros [r k] [r' k'] (q & G & R). cbn in G, R. destruct r as [[a|]|e], r' as [[b|]|e']; cbn in R; try tauto; subst; cbn; auto.
    eapply qrel_bind; [apply (rd_ptr_rel q _ _ (gr_rel _ _ _ _ _ _ G)); eauto|]. intros s s' ->. apply qrel_eq.
  Qed.
  Lemma value_IsEmptyString_rel v w : In (v, w) p -> qrel eq (value_IsEmptyString X h v) (value_IsEmptyString X h' w).
  Proof.
    intros L. unfold value_IsEmptyString. start.
    destruct (negb (common_IsString (common_GetType X j))); cbn; auto.
    eapply qrel_bind; [apply value_GetStringValue_rel; eauto|]. intros s s' ->. apply qrel_eq.
  Qed.
  Lemma value_IsEqualToString_rel v w s : In (v, w) p ->
    qrel eq (value_IsEqualToString X h v s) (value_IsEqualToString X h' w s).
  Proof.
    intros L. unfold value_IsEqualToString. start; try apply qrel_eq. destruct s; cbn; auto.
    eapply qrel_bind; [apply value_GetStringValue_rel; eauto|]. intros x y ->. apply qrel_eq.
  Qed.

  Lemma conv_strings_rel l l' : Forall2 (same_handle p) l l' -> qrel eq (conv_strings X h l) (conv_strings X h' l').
  Proof.
    induction 1 as [|o o' l l' R _ IH]; cbn; auto.
    eapply qrel_bind with (R := eq).
    - apply conv_string_rel. destruct o, o'; cbn in R; try tauto; constructor; auto.
    - intros r r' ->. eapply qrel_bind; [exact IH|]. intros q q' ->. apply qrel_eq.
  Qed.
  Lemma value_GetErrors_rel v w : In (v, w) p -> qrel eq (value_GetErrors X h v) (value_GetErrors X h' w).
  Proof.
    intros L. unfold value_GetErrors. start.
    assert (Y : forall a b, In (a, b) p -> qrel eq
       (l <-r rd_arr h a ;; q <-r conv_strings X h l ;; Ok (match snd q with [] => GVal (map Plain (fst q)) | e => GErr e end))
       (l <-r rd_arr h' b ;; q <-r conv_strings X h' l ;; Ok (match snd q with [] => GVal (map Plain (fst q)) | e => GErr e end))).
    { intros a b K. eapply qrel_bind; [apply rd_arr_r; eauto|]. intros l l' Rl.
      eapply qrel_bind; [apply conv_strings_rel; eauto|]. intros x y ->. apply qrel_eq. }
    destruct R as [i N| | | | | | |]; try (apply Y; assumption); try apply qrel_eq; try (cbn; auto; fail).
    destruct i as [| | | | | |[?|]| | | | | | | | | | | | |]; try apply qrel_eq; discriminate.
  Qed.
  Lemma value_GetFunc_rel v w : In (v, w) p -> qrel eq (value_GetFunc X h v) (value_GetFunc X h' w).
  Proof.
    intros L. unfold value_GetFunc. start.
    destruct R as [i N| | | | | | |]; try apply qrel_eq; destruct (common_GetType X _) as [| | | | | | | | | | | | | | | |[|]| |]; cbn; auto.
  Qed.

  (** ** Arrays *)

  Lemma arr_Len_rel a b : In (a, b) p -> qrel eq (arr_Len h a) (arr_Len h' b).
  Proof.
    intros L. unfold arr_Len. eapply qrel_bind; [apply rd_arr_r; eauto|]. intros l l' R. cbn.
    now rewrite (F2_length _ _ _ R).
  Qed.
  Lemma arr_elem_rel {A B} (R : A -> B -> Prop) get get' a b n :
    In (a, b) p -> (forall v w, In (v, w) p -> qrel (grel R) (get v) (get' w)) ->
    qrel (grel R) (arr_elem h a n get) (arr_elem h' b n get').
  Proof.
    intros L G. unfold arr_elem. eapply qrel_bind; [apply rd_arr_r; eauto|]. intros l l' Rl.
    rewrite (F2_length _ _ _ Rl). destruct (Z.ltb n 0); [cbn; auto|].
    destruct (Z.ltb (Z.of_nat (length l') - 1) n); [cbn; auto|].
    pose proof (F2_nth_error _ _ _ (Z.to_nat n) Rl) as E.
    destruct (nth_error l (Z.to_nat n)) as [[v|]|], (nth_error l' (Z.to_nat n)) as [[w|]|]; cbn in E; try tauto; try exact Logic.I.
    eapply qrel_bind; [apply G; eauto|]. intros [x|x] [y|y] Rx; cbn in *; auto; tauto.
  Qed.
  Lemma arr_GetStringValue_rel a b n : In (a, b) p -> qrel eq (arr_GetStringValue X h a n) (arr_GetStringValue X h' b n).
  Proof.
    intros L. unfold arr_GetStringValue.
    eapply qrel_imp; [|apply (arr_elem_rel eq); auto].
    - intros [x|x] [y|y]; cbn; intros; subst; auto; tauto.
    - intros v w K. eapply qrel_imp; [|apply value_GetStringValue_rel; eauto]. intros x y ->. destruct y; cbn; auto.
  Qed.
  Lemma arr_GetMap_rel a b n : In (a, b) p -> qrel (grel (linked p)) (arr_GetMap X h a n) (arr_GetMap X h' b n).
  Proof.
    intros L. unfold arr_GetMap. eapply qrel_bind.
    - apply (arr_elem_rel (same_handle p)); eauto. intros v w K. now apply value_GetMap_rel.
    - intros [[x|]|x] [[y|]|y]; cbn; intros; subst; auto; tauto.
  Qed.
  Lemma collect_val_rel {A} (get get' : loc -> res (gres A)) l l' :
    Forall2 (same_handle p) l l' -> (forall v w, In (v, w) p -> qrel eq (get v) (get' w)) ->
    qrel eq (collect_val get l) (collect_val get' l').
  Proof.
    intros R G. induction R as [|[v|] [w|] l l' Ro Rl IH]; cbn in *; auto; try tauto.
    - rewrite (qrel_eq_inv _ _ (G _ _ Ro)), (qrel_eq_inv _ _ IH). apply qrel_eq.
    - rewrite (qrel_eq_inv _ _ IH). apply qrel_eq.
  Qed.
  Lemma arr_collect_val_rel {A} (get get' : loc -> res (gres A)) a b :
    In (a, b) p -> (forall v w, In (v, w) p -> qrel eq (get v) (get' w)) ->
    qrel eq (arr_collect_val get h a) (arr_collect_val get' h' b).
  Proof.
    intros L G. unfold arr_collect_val. eapply qrel_bind; [apply rd_arr_r; eauto|]. intros l l' R.
    rewrite (qrel_eq_inv _ _ (collect_val_rel _ _ _ _ R G)). apply qrel_eq.
  Qed.
  Lemma run_lgetter_rel g a b : In (a, b) p -> qrel eq (run_lgetter g X h a) (run_lgetter g X h' b).
  Proof.
    intros L. destruct g as [k| | | |]; cbn [run_lgetter]; unfold rmap.
    - unfold arr_GetArrayOfIntKindValue.
      assert (E := fun kd => arr_collect_val_rel _ _ a b L (value_GetIntKindValue_rel kd)).
      destruct k; try exact Logic.I; rewrite (qrel_eq_inv _ _ (E _)); apply qrel_eq.
    - unfold arr_GetArrayOfFloat32Value.
      rewrite (qrel_eq_inv _ _ (arr_collect_val_rel _ _ a b L (value_GetFloat32Value_rel X p h h' H))). apply qrel_eq.
    - unfold arr_GetArrayOfFloat64Value.
      rewrite (qrel_eq_inv _ _ (arr_collect_val_rel _ _ a b L (value_GetFloat64Value_rel X p h h' H))). apply qrel_eq.
    - unfold arr_GetArrayOfBoolValue.
      rewrite (qrel_eq_inv _ _ (arr_collect_val_rel _ _ a b L (value_GetBoolValue_rel X p h h' H))). apply qrel_eq.
    - unfold arr_GetArrayOfStringValue.
      rewrite (qrel_eq_inv _ _ (arr_collect_val_rel _ _ a b L value_GetStringValue_rel)). apply qrel_eq.
  Qed.

  (** ** Maps *)

  Let rd_map_r := rd_map_rel p h h' H.

  Lemma has_key_rel m m' k : mobj_rel p m m' -> has_key m k = has_key m' k.
  Proof.
    intros (_ & _ & T). specialize (T k). unfold has_key. destruct (tbl_get _ _), (tbl_get _ _); cbn in T; auto; tauto.
  Qed.
  Lemma map_HasKey_rel m n k : In (m, n) p -> qrel eq (map_HasKey h m k) (map_HasKey h' n k).
  Proof.
    intros L. unfold map_HasKey. eapply qrel_bind; [apply rd_map_r; eauto|]. intros x y R. cbn. now apply has_key_rel.
  Qed.
  Lemma map_GetKeys_rel m n : In (m, n) p -> qrel eq (map_GetKeys h m) (map_GetKeys h' n).
  Proof. intros L. unfold map_GetKeys. eapply qrel_bind; [apply rd_map_r; eauto|]. intros x y R. cbn. apply R. Qed.
  Lemma map_Values_rel m n : In (m, n) p -> qrel (linked p) (map_Values h m) (map_Values h' n).
  Proof. intros L. unfold map_Values. eapply qrel_bind; [apply rd_map_r; eauto|]. intros x y R. cbn. apply R. Qed.
  Lemma map_IsNil_rel m n : In (m, n) p -> qrel eq (map_IsNil X h m) (map_IsNil X h' n).
  Proof. intros L. unfold map_IsNil. eapply qrel_bind; [apply rd_map_r; eauto|]. intros x y R. cbn. auto. Qed.
  Lemma tbl_value_rel m m' k : mobj_rel p m m' ->
    same_handle p (match tbl_get (m_tbl m) k with Some o => o | None => None end)
                  (match tbl_get (m_tbl m') k with Some o => o | None => None end).
  Proof.
    intros (_ & _ & T). specialize (T k). destruct (tbl_get _ _), (tbl_get _ _); cbn in T; auto; try tauto; exact Logic.I.
  Qed.
  Lemma map_GetValue_rel m n k : In (m, n) p -> qrel (same_handle p) (map_GetValue h m k) (map_GetValue h' n k).
  Proof.
    intros L. unfold map_GetValue. eapply qrel_bind; [apply rd_map_r; eauto|]. intros x y R. cbn. now apply tbl_value_rel.
  Qed.
  Lemma map_IsNull_rel m n k : In (m, n) p -> qrel eq (map_IsNull h m k) (map_IsNull h' n k).
  Proof.
    intros L. unfold map_IsNull. eapply qrel_bind; [apply rd_map_r; eauto|]. intros x y (_ & _ & T). specialize (T k).
    destruct (tbl_get _ _) as [[v|]|], (tbl_get _ _) as [[w|]|]; cbn in T; try tauto; cbn; auto.
    eapply qrel_bind; [apply rd_val_r; eauto|]. intros i j R. cbn. now apply (held_nil p).
  Qed.
  Lemma map_via_rel {A B} (R : A -> B -> Prop) z z' get get' m n k :
    In (m, n) p -> R z z' -> (forall v w, In (v, w) p -> qrel R (get v) (get' w)) ->
    qrel R (map_via z get h m k) (map_via z' get' h' n k).
  Proof.
    intros L Z G. unfold map_via. eapply qrel_bind; [apply map_IsNull_rel; eauto|]. intros b b' ->.
    destruct b'; [exact Z|]. eapply qrel_bind; [apply map_GetValue_rel; eauto|].
    intros [v|] [w|] K; cbn in K; try tauto; cbn; auto.
  Qed.
  Lemma map_via_eq {A} (z : A) get get' m n k :
    In (m, n) p -> (forall v w, In (v, w) p -> qrel eq (get v) (get' w)) ->
    qrel eq (map_via z get h m k) (map_via z get' h' n k).
  Proof. intros L G. now apply map_via_rel. Qed.

  Lemma map_GetMap_rel m n k : In (m, n) p -> qrel (grel (same_handle p)) (map_GetMap X h m k) (map_GetMap X h' n k).
  Proof.
    intros L. unfold map_GetMap. eapply qrel_bind; [apply map_GetValue_rel; eauto|].
    intros [v|] [w|] K; cbn in K; try tauto; cbn; auto. now apply value_GetMap_rel.
  Qed.
  Lemma map_GetMapValue_rel m n k : In (m, n) p -> qrel (grel (linked p)) (map_GetMapValue X h m k) (map_GetMapValue X h' n k).
  Proof.
    intros L. unfold map_GetMapValue. eapply qrel_bind; [apply map_GetValue_rel; eauto|].
    intros [v|] [w|] K; cbn in K; try tauto; cbn; auto. now apply value_GetMapValue_rel.
  Qed.
  Lemma map_GetArray_rel m n k : In (m, n) p -> qrel (grel (same_handle p)) (map_GetArray X h m k) (map_GetArray X h' n k).
  Proof. intros L. apply map_via_rel; auto; [exact Logic.I|]. apply value_GetArray_rel; auto. Qed.
  Lemma map_GetArrayValue_rel m n k : In (m, n) p -> qrel (grel (linked p)) (map_GetArrayValue X h m k) (map_GetArrayValue X h' n k).
  Proof.
    intros L. unfold map_GetArrayValue. eapply qrel_bind; [apply map_GetArray_rel; eauto|].
    intros [[x|]|x] [[y|]|y]; cbn; intros; subst; auto; tauto.
  Qed.

  Lemma value_GetRunes_rel v w : In (v, w) p -> qrel eq (value_GetRunes X h v) (value_GetRunes X h' w).
  Proof.
    intros L. unfold value_GetRunes. eapply qrel_bind; [apply rd_val_r; eauto|]. intros i j R.
    rewrite (held_isnil _ _ _ X R). destruct (iface_IsNil X j); [cbn; auto|].
    destruct R as [i N|t a b K| | | | | |]; try exact Logic.I; try (cbn; auto; fail).
    - destruct i as [|[s| | |]|[| | |] [?|]| | | | | | | | | | | | | | | | |]; try (cbn; auto; fail); discriminate.
    - destruct t; try (cbn; auto; fail).
      eapply qrel_bind; [apply (rd_ptr_rel p h h' H); eauto|]. intros x y ->. destruct y; cbn; auto.
  Qed.
  Lemma map_GetRunes_rel m n k : In (m, n) p -> qrel eq (map_GetRunes X h m k) (map_GetRunes X h' n k).
  Proof. intros L. apply map_via_eq; auto. apply value_GetRunes_rel. Qed.
  Lemma array_of_same {A} (get : heap -> loc -> res (gres (list A))) m n k :
    (forall a b, In (a, b) p -> qrel eq (get h a) (get h' b)) -> In (m, n) p ->
    map_array_of get X h m k = map_array_of get X h' n k.
  Proof.
    intros G L. apply qrel_eq_inv. unfold map_array_of.
    eapply qrel_bind; [eapply map_GetArray_rel; eauto|].
    intros [[a|]|e] [[b|]|e']; cbn; intros K; subst; auto; try tauto.
    rewrite (qrel_eq_inv _ _ (G _ _ K)). apply qrel_eq.
  Qed.
  Lemma array_of_value_same {A} (get : heap -> loc -> res (gres (list A))) m n k :
    (forall a b, In (a, b) p -> qrel eq (get h a) (get h' b)) -> In (m, n) p ->
    map_array_of_value get X h m k = map_array_of_value get X h' n k.
  Proof.
    intros G L. apply qrel_eq_inv. unfold map_array_of_value.
    eapply qrel_bind; [eapply map_GetArrayValue_rel; eauto|].
    intros [a|e] [b|e']; cbn; intros K; subst; auto; try tauto.
  Qed.
  Lemma run_mgetter_rel g m n k : In (m, n) p -> qrel eq (run_mgetter g X h m k) (run_mgetter g X h' n k).
  Proof.
    intros L. destruct g; cbn [run_mgetter].
    - rewrite (array_of_value_same (arr_GetArrayOfFloat32Value X) m n k); auto using @qrel_eq.
      intros. apply arr_collect_val_rel; auto. apply value_GetFloat32Value_rel; auto.
    - rewrite (array_of_value_same (arr_GetArrayOfFloat64Value X) m n k); auto using @qrel_eq.
      intros. apply arr_collect_val_rel; auto. apply value_GetFloat64Value_rel; auto.
    - rewrite (array_of_same (arr_GetArrayOfBoolValue X) m n k); auto using @qrel_eq.
      intros. apply arr_collect_val_rel; auto. apply value_GetBoolValue_rel; auto.
  Qed.

  (** ** Answers *)

  Definition answer_rel (q : links) (a b : answer) : Prop :=
    match a, b with
    | AnsLoc o, AnsLoc o' => same_handle q o o'
    | AnsObj i, AnsObj j => same_held q i j
    | AnsLocP r, AnsLocP r' => grel (same_handle q) r r'
    | AnsLocV r, AnsLocV r' => grel (linked q) r r'
    | _, _ => a = b
    end.
  Lemma answer_map {A B} (R : A -> B -> Prop) f g x y :
    qrel R x y -> (forall a b, R a b -> answer_rel p (f a) (g b)) -> qrel (answer_rel p) (rmap f x) (rmap g y).
  Proof. intros Q K. unfold rmap. eapply qrel_bind; [exact Q|]. intros a b R'. cbn. auto. Qed.
  Ltac ans_eq E := eapply answer_map; [eapply E; eauto | let a := fresh in intros a ? <-; cbn; auto].

  Lemma run_vgetter_rel g v w : In (v, w) p -> qrel (answer_rel p) (run_vgetter g X h v) (run_vgetter g X h' w).
  Proof.
    intros L. destruct g; cbn [run_vgetter].
    - eapply answer_map; [apply value_GetObject_rel; eauto | intros; assumption].
    - ans_eq value_GetType_rel.
    - ans_eq value_IsNil_rel.
    - ans_eq value_is_rel.
    - ans_eq value_IsBoolVal_rel.
    - ans_eq value_IsEmptyString_rel.
    - ans_eq value_GetIntKind_rel.
    - ans_eq value_GetIntKindValue_rel.
    - ans_eq value_GetFloat32_rel.
    - ans_eq value_GetFloat32Value_rel.
    - ans_eq value_GetFloat64_rel.
    - ans_eq value_GetFloat64Value_rel.
    - ans_eq value_GetString_content_rel.
    - ans_eq value_GetStringValue_rel.
    - ans_eq value_GetBool_content_rel.
    - ans_eq value_GetBoolValue_rel.
    - eapply answer_map; [apply value_GetMap_rel; eauto | intros; assumption].
    - eapply answer_map; [apply value_GetMapValue_rel; eauto | intros; assumption].
    - eapply answer_map; [apply value_GetArray_rel; eauto | intros; assumption].
    - eapply answer_map; [apply value_GetArrayValue_rel; eauto | intros; assumption].
    - ans_eq value_GetErrors_rel.
    - ans_eq value_GetFunc_rel.
  Qed.

  Ltac via E := eapply answer_map; [apply map_via_eq; [assumption | intros; eapply E; eauto] | let a := fresh in intros a ? <-; cbn; auto].
  Lemma run_getter_rel g m n k : In (m, n) p -> qrel (answer_rel p) (run_getter g X h m k) (run_getter g X h' n k).
  Proof.
    intros L. destruct g; cbn [run_getter].
    - ans_eq map_HasKey_rel.
    - ans_eq map_IsNull_rel.
    - eapply answer_map; [apply map_GetValue_rel; eauto | intros; assumption].
    - eapply answer_map; [apply (map_via_rel (same_held p)); [eassumption | now constructor | apply value_GetObject_rel; auto] | intros; assumption].
    - via value_GetType_rel.
    - via value_is_rel.
    - via value_IsBoolVal_rel.
    - via value_IsEmptyString_rel.
    - destruct k0; try exact Logic.I; via value_GetIntKind_rel.
    - destruct k0; try exact Logic.I; via value_GetIntKindValue_rel.
    - via value_GetFloat32_rel.
    - via value_GetFloat32Value_rel.
    - via value_GetFloat64_rel.
    - via value_GetFloat64Value_rel.
    - via value_GetString_content_rel.
    - via value_GetStringValue_rel.
    - via value_GetBool_content_rel.
    - eapply answer_map; [apply map_GetMap_rel; eauto | intros; assumption].
    - eapply answer_map; [apply map_GetMapValue_rel; eauto | intros; assumption].
    - eapply answer_map; [apply map_GetArray_rel; eauto | intros; assumption].
    - eapply answer_map; [apply map_GetArrayValue_rel; eauto | intros; assumption].
    - via value_GetErrors_rel.
    - via value_GetFunc_rel.
  Qed.

  (** ** Writing texts *)

  Lemma json_items_rel {A B} (R : A -> B -> Prop) conv conv' l l' :
    Forall2 R l l' -> (forall a b, R a b -> qrel eq (conv a) (conv' b)) ->
    qrel eq (json_items conv l) (json_items conv' l').
  Proof.
    intros F G. induction F as [|a b l l' Ra Fl IH]; cbn; auto.
    rewrite (qrel_eq_inv _ _ (G _ _ Ra)), (qrel_eq_inv _ _ IH).
    destruct Fl; apply qrel_eq.
  Qed.
  Section Conv.
    Context (conv conv' : iface -> res (str * list err)).
    Context (C : forall i j, same_held p i j -> qrel eq (conv i) (conv' j)).
    Lemma pval_rel o o' : same_handle p o o' -> same_held p (IPVal o) (IPVal o').
    Proof. destruct o, o'; cbn; try tauto; constructor; auto. Qed.
    Lemma arr_json_rel a b : In (a, b) p -> qrel eq (arr_json conv h a) (arr_json conv' h' b).
    Proof.
      intros L. unfold arr_json. eapply qrel_bind; [apply rd_arr_r; eauto|]. intros l l' R.
      assert (E : qrel eq (json_items (fun o => conv (IPVal o)) l) (json_items (fun o => conv' (IPVal o)) l')).
      { eapply json_items_rel; [exact R|]. intros o o' Ro. apply C. now apply pval_rel. }
      apply qrel_eq_inv in E. rewrite E. destruct R; apply qrel_eq.
    Qed.
    Lemma json_members_rel t t' ks : (forall k, entry_rel p (tbl_get t k) (tbl_get t' k)) ->
      json_members conv X t ks = json_members conv' X t' ks.
    Proof.
      intros T. induction ks as [|k ks IH]; cbn; auto. destruct (x_escape X k); auto. rewrite IH.
      replace (conv (IPVal (match tbl_get t k with Some o => o | None => None end)))
        with (conv' (IPVal (match tbl_get t' k with Some o => o | None => None end))); auto.
      symmetry. apply qrel_eq_inv. apply C. apply pval_rel. specialize (T k).
      destruct (tbl_get t k), (tbl_get t' k); cbn in T; try tauto; auto; exact Logic.I.
    Qed.
    Lemma map_json_rel m n : In (m, n) p -> qrel eq (map_json conv X h m) (map_json conv' X h' n).
    Proof.
      intros L. unfold map_json. eapply qrel_bind; [apply rd_map_r; eauto|]. intros x y (K & _ & T).
      rewrite K, (json_members_rel _ _ _ T). apply qrel_eq.
    Qed.
    Lemma json_held_rel i j : same_held p i j -> qrel eq (json_held conv X h i) (json_held conv' X h' j).
    Proof.
      intros R. pose proof (deref_rel p h h' H _ _ R) as D. unfold json_held.
      rewrite (held_gtype _ _ _ X R). pose proof (held_nil _ _ _ R) as Nl. pose proof (NA _ _ _ R) as Sp.
      destruct (common_GetType X j); try exact (eq_refl _);
        try (eapply qrel_bind; [exact D|]; intros s s' ->; apply qrel_eq);
        try (destruct R; try exact Logic.I; apply qrel_eq).
      - destruct R as [i N| | | | | | |]; try exact Logic.I; try (apply map_json_rel; assumption).
        destruct i as [| | | |[?|]| | | | | | | | | | | | | | |]; try exact Logic.I; discriminate.
      - destruct R as [i N| | | | | | |]; try exact Logic.I; try (apply map_json_rel; assumption).
        destruct i as [| | | |[?|]| | | | | | | | | | | | | | |]; try exact Logic.I; discriminate.
      - destruct R as [i N| | | | | | |]; try exact Logic.I; try (apply arr_json_rel; assumption).
        destruct i as [| | | | | |[?|]| | | | | | | | | | | | |]; try exact Logic.I; discriminate.
      - destruct R as [i N| | | | | | |]; try exact Logic.I; try (apply arr_json_rel; assumption).
        destruct i as [| | | | | |[?|]| | | | | | | | | | | | |]; try exact Logic.I; discriminate.
      - rewrite Nl, Sp. apply qrel_eq.
    Qed.
  End Conv.
  Lemma conv_json_rel n i j : same_held p i j -> qrel eq (conv_json n X h i) (conv_json n X h' j).
  Proof.
    revert i j. induction n as [|n IH]; intros i j R; cbn [conv_json]; [exact Logic.I|].
    rewrite (held_nil _ _ _ R). destruct (common_IsNil j); [cbn; auto|].
    eapply qrel_bind; [apply unwrap_rel; eauto|]. intros x y Rx. now apply json_held_rel.
  Qed.
  Lemma map_ToJSONString_rel n a b t : In (a, b) p -> qrel eq (map_ToJSONString n X h a t) (map_ToJSONString n X h' b t).
  Proof.
    intros L. unfold map_ToJSONString. destruct t; [|apply qrel_eq].
    rewrite (qrel_eq_inv _ _ (map_json_rel _ _ (conv_json_rel n) a b L)). apply qrel_eq.
  Qed.
  Lemma arr_ToJSONString_rel n a b t : In (a, b) p -> qrel eq (arr_ToJSONString n X h a t) (arr_ToJSONString n X h' b t).
  Proof.
    intros L. unfold arr_ToJSONString. destruct t; [|apply qrel_eq].
    rewrite (qrel_eq_inv _ _ (arr_json_rel _ _ (conv_json_rel n) a b L)). apply qrel_eq.
  Qed.
End Read.
