(** * Writing, cloning and parsing on two heaps with the same content *)
From Coq Require Import Ascii String List NArith ZArith Bool Lia.
From Verif Require Import GoStr StrLemmas GoNum GoFloat Heap Common ValueModel ArrayModel MapModel JsonModel ParserModel
  GetterModel NamedModel PtrModel PtrListModel TimeModel SpecDict DictLemmas SpecWorld Inv World SpecAlike ClientModel
  AlikeFacts AlikeRead.
Import ListNotations.

Definition rh : links -> option nat -> option nat -> Prop := same_handle.
Definition rgo : links -> gres (option nat) -> gres (option nat) -> Prop := fun q => grel (same_handle q).
Definition rgl : links -> gres nat -> gres nat -> Prop := fun q => grel (linked q).

Ltac incls := repeat match goal with
  | I : incl ?p ?q, K : In _ ?p |- _ => let K' := fresh K in pose proof (I _ K) as K'; clear K; rename K' into K
  end.

(** ** Lists *)

Lemma F2_upd p l l' n o o' : Forall2 (same_handle p) l l' -> same_handle p o o' ->
  Forall2 (same_handle p) (upd l n o) (upd l' n o').
Proof. intros H K. revert n. induction H; intros [|n]; cbn; constructor; auto. Qed.
Lemma F2_firstn {A B} (R : A -> B -> Prop) l l' n : Forall2 R l l' -> Forall2 R (firstn n l) (firstn n l').
Proof. intros H. revert n. induction H; intros [|n]; cbn; constructor; auto. Qed.
Lemma F2_skipn {A B} (R : A -> B -> Prop) l l' n : Forall2 R l l' -> Forall2 R (skipn n l) (skipn n l').
Proof. intros H. revert n. induction H; intros [|n]; cbn; auto. Qed.
Lemma F2_remove {A B} (R : A -> B -> Prop) l l' n : Forall2 R l l' -> Forall2 R (remove_nth n l) (remove_nth n l').
Proof. intros H. unfold remove_nth. apply Forall2_app; [now apply F2_firstn | now apply F2_skipn]. Qed.

Lemma F2_impl {A B} (R S : A -> B -> Prop) l l' : (forall a b, R a b -> S a b) -> Forall2 R l l' -> Forall2 S l l'.
Proof. intros I. induction 1; constructor; auto. Qed.

(** ** Setters *)

Lemma new_value_rel p i j : same_held p i j -> mrel p linked (new_value i) (new_value j).
Proof. intros H. now apply alloc_rel. Qed.
Lemma new_array_rel p : mrel p linked new_array new_array.
Proof. apply alloc_rel. constructor. Qed.
Lemma new_map_rel p : mrel p linked new_map new_map.
Proof.
  eapply mrel_bind; [apply new_array_rel|]. intros q a b I L. apply alloc_rel. repeat split; auto.
Qed.
Lemma value_SetObject_rel p v w i j : In (v, w) p -> same_held p i j ->
  mrel p req (value_SetObject v i) (value_SetObject w j).
Proof.
  intros L R q h h' I H. unfold value_SetObject. pose proof (rd_val_rel q h h' H v w (I _ L)) as Q.
  destruct (rd_val h v), (rd_val h' w); cbn in Q; try tauto; try exact Logic.I.
  apply (wr_rel q v w); auto using incl_refl. cbn. eapply same_held_incl; eauto.
Qed.
Lemma arr_AppendValue_rel p a b o o' : In (a, b) p -> same_handle p o o' ->
  mrel p req (arr_AppendValue a o) (arr_AppendValue b o').
Proof.
  intros L R q h h' I H. unfold arr_AppendValue. pose proof (rd_arr_rel q h h' H a b (I _ L)) as Q.
  destruct (rd_arr h a), (rd_arr h' b); cbn in Q; try tauto; try exact Logic.I.
  apply (wr_rel q a b); auto using incl_refl. cbn. apply Forall2_app; auto. constructor; auto.
  eapply same_handle_incl; eauto.
Qed.
Lemma arr_AppendObject_rel p a b i j : In (a, b) p -> same_held p i j ->
  mrel p req (arr_AppendObject a i) (arr_AppendObject b j).
Proof.
  intros L R. eapply mrel_bind; [now apply new_value_rel|]. intros q v w I K. apply arr_AppendValue_rel; auto.
Qed.
Lemma arr_SetValueAtIndex_rel p a b n o o' : In (a, b) p -> same_handle p o o' ->
  mrel p req (arr_SetValueAtIndex a n o) (arr_SetValueAtIndex b n o').
Proof.
  intros L R q h h' I H. unfold arr_SetValueAtIndex. pose proof (rd_arr_rel q h h' H a b (I _ L)) as Q.
  pose proof (grows_refl _ _ _ H) as G.
  destruct (rd_arr h a) as [l| | |], (rd_arr h' b) as [l'| | |]; cbn in Q; try tauto; try exact Logic.I.
  rewrite (F2_length _ _ _ Q). destruct (Z.ltb n 0); [cbn; unfold req; eauto|].
  destruct (Z.ltb (Z.of_nat (length l') - 1) n); [cbn; unfold req; eauto|].
  eapply (mrel_bind q req); [|intros; apply mrel_ret; reflexivity|apply incl_refl|exact H].
  apply wr_rel; auto. cbn. apply F2_upd; auto. eapply same_handle_incl; eauto.
Qed.
Lemma arr_RemoveValueAtIndex_rel p a b n : In (a, b) p ->
  mrel p req (arr_RemoveValueAtIndex a n) (arr_RemoveValueAtIndex b n).
Proof.
  intros L q h h' I H. unfold arr_RemoveValueAtIndex. pose proof (rd_arr_rel q h h' H a b (I _ L)) as Q.
  pose proof (grows_refl _ _ _ H) as G.
  destruct (rd_arr h a) as [l| | |], (rd_arr h' b) as [l'| | |]; cbn in Q; try tauto; try exact Logic.I.
  rewrite (F2_length _ _ _ Q). destruct (Z.ltb n 0); [cbn; unfold req; eauto|].
  destruct (Z.ltb (Z.of_nat (length l') - 1) n); [cbn; unfold req; eauto|].
  eapply (mrel_bind q req); [|intros; apply mrel_ret; reflexivity|apply incl_refl|exact H].
  apply wr_rel; auto. cbn. now apply F2_remove.
Qed.

Lemma map_setInternal_rel p m n k o o' : In (m, n) p -> same_handle p o o' ->
  mrel p req (map_setInternal m k o) (map_setInternal n k o').
Proof.
  intros L R q h h' I H. unfold map_setInternal. pose proof (rd_map_rel q h h' H m n (I _ L)) as Q.
  destruct (rd_map h m) as [x| | |], (rd_map h' n) as [y| | |]; cbn in Q; try tauto; try exact Logic.I.
  rewrite (has_key_rel q _ _ k Q). pose proof (same_handle_incl _ _ _ _ I R) as R'. destruct Q as (K & V & T). rewrite K.
  assert (W : forall ks, mrel q req (fun h0 => wr m (CMap (MObj (tbl_put (m_tbl x) k o) ks (m_vals x))) h0)
                                    (fun h0 => wr n (CMap (MObj (tbl_put (m_tbl y) k o') ks (m_vals y))) h0)).
  { intros ks. apply (wr_rel q m n (CMap (MObj (tbl_put (m_tbl x) k o) ks (m_vals x)))
                        (CMap (MObj (tbl_put (m_tbl y) k o') ks (m_vals y)))); auto.
    split; [reflexivity|]. split; [exact V|]. intros k0. cbn [m_tbl]. rewrite !tbl_get_put. destruct (str_eqb k k0); auto. }
  destruct (negb (has_key y k) || match m_keys y with [] => true | _ :: _ => false end).
  - eapply (mrel_bind q req); [apply arr_AppendValue_rel; auto | | apply incl_refl | exact H].
    intros r ? ? J _. eapply mrel_incl; [exact J | apply W].
  - destruct (find_index k (m_keys y)).
    + eapply (mrel_bind q req); [apply arr_SetValueAtIndex_rel; auto | | apply incl_refl | exact H].
      intros r ? ? J _. eapply mrel_incl; [exact J | apply W].
    + apply W; auto using incl_refl.
Qed.
Lemma map_SetObject_rel p m n k i j : In (m, n) p -> same_held p i j ->
  mrel p req (map_SetObject m k i) (map_SetObject n k j).
Proof.
  intros L R. eapply mrel_bind; [now apply new_value_rel|]. intros q v w I K. apply map_setInternal_rel; auto.
Qed.
Lemma map_SetScalarValue_rel p m n k s : In (m, n) p -> mrel p req (map_SetScalarValue m k s) (map_SetScalarValue n k s).
Proof.
  intros L. eapply mrel_bind; [apply alloc_rel; reflexivity|]. intros q v w I K. apply map_SetObject_rel; auto.
  now constructor.
Qed.
Lemma map_RemoveKey_rel p m n k : In (m, n) p -> mrel p req (map_RemoveKey m k) (map_RemoveKey n k).
Proof.
  intros L q h h' I H. unfold map_RemoveKey. pose proof (rd_map_rel q h h' H m n (I _ L)) as Q.
  pose proof (grows_refl _ _ _ H) as G.
  destruct (rd_map h m) as [x| | |], (rd_map h' n) as [y| | |]; cbn in Q; try tauto; try exact Logic.I.
  rewrite (has_key_rel q _ _ k Q). destruct Q as (K & V & T). rewrite K.
  destruct (negb (has_key y k)); [cbn; unfold req; eauto|].
  assert (W : forall ks, mrel q req (wr m (CMap (MObj (tbl_del (m_tbl x) k) ks (m_vals x))))
                                    (wr n (CMap (MObj (tbl_del (m_tbl y) k) ks (m_vals y))))).
  { intros ks. apply wr_rel; auto. split; [reflexivity|]. split; [exact V|]. intros k0. cbn [m_tbl]. rewrite !tbl_get_del. destruct (str_eqb k k0); auto.
    exact Logic.I. }
  destruct (find_index k (m_keys y)).
  - eapply (mrel_bind q req); [apply W | | apply incl_refl | exact H]. intros r ? ? J _.
    eapply (mrel_bind r req); [apply arr_RemoveValueAtIndex_rel; auto|]. intros; apply mrel_ret; reflexivity.
  - eapply (mrel_bind q req); [apply W | | apply incl_refl | exact H]. intros; apply mrel_ret; reflexivity.
Qed.

(** ** Constructors *)

Lemma wrap_iface_rel X p i j : same_held p i j -> mrel p rh (wrap_iface X i) (wrap_iface X j).
Proof.
  intros R. assert (W : mrel p rh (v <- new_value i ;; ret (Some v)) (v <- new_value j ;; ret (Some v))).
  { eapply mrel_bind; [now apply new_value_rel|]. intros q v w I K. apply mrel_ret. intros r J. cbn. apply J, K. }
  unfold wrap_iface. rewrite (held_gtype _ _ _ X R). destruct (common_GetType X j); try exact W;
    destruct R as [i N| | | | | | |]; try exact W; try (apply mrel_ret; intros r J; cbn; auto).
  - destruct i; try exact W. discriminate.
  - destruct i as [| | | | | | | |[?|]| | | | | | | | | | |]; try exact W; try discriminate. apply mrel_ret. intros; exact Logic.I.
Qed.
Lemma arr_append_all_rel X p a b l l' : In (a, b) p -> Forall2 (same_held p) l l' ->
  mrel p req (arr_append_all X a l) (arr_append_all X b l').
Proof.
  intros L F. revert p L F. revert l'. induction l as [|i l IH]; intros l' p L F; inversion F; subst; cbn.
  - apply mrel_ret. reflexivity.
  - eapply mrel_bind; [now apply wrap_iface_rel|]. intros q o o' I K.
    eapply mrel_bind; [apply arr_AppendValue_rel; [apply I, L | exact K]|]. intros r ? ? J _.
    apply IH; auto. eapply F2_impl; [|eassumption]. intros ? ? Hx. eapply same_held_incl; [|exact Hx]. eapply incl_tran; eauto.
Qed.
Lemma map_put_all_rel X p a b l l' : In (a, b) p ->
  Forall2 (fun x y => fst x = fst y /\ same_held p (snd x) (snd y)) l l' ->
  mrel p req (map_put_all X a l) (map_put_all X b l').
Proof.
  intros L F. revert p L F. revert l'. induction l as [|[k i] l IH]; intros l' p L F; inversion F as [|? [k' j] ? l2 [E R] F2]; subst; cbn.
  - apply mrel_ret. reflexivity.
  - cbn in E, R. subst k'. eapply mrel_bind; [now apply wrap_iface_rel|]. intros q o o' I K.
    eapply mrel_bind; [apply map_setInternal_rel; [apply I, L | exact K]|]. intros r ? ? J _.
    apply IH; auto. eapply F2_impl; [|eassumption]. intros ? ? [? Hx]. split; auto.
    eapply same_held_incl; [|exact Hx]. eapply incl_tran; eauto.
Qed.

(** ** Pointers *)

Lemma value_ptr_rel X (NA : prints_no_address X) p t v w : In (v, w) p -> mrel p rgo (value_ptr t X v) (value_ptr t X w).
Proof.
  intros L. assert (W : forall A (mk : A -> scalar) (f g : heap -> res (gres (option A))),
    (forall q h h', incl p q -> hrel q h h' -> qrel eq (f h) (g h')) ->
    mrel p rgo (fun h => in_new mk (f h) h) (fun h => in_new mk (g h) h)).
  { intros A mk f g E q h h' I H. rewrite (qrel_eq_inv _ _ (E q h h' I H)). unfold in_new.
    pose proof (grows_refl _ _ _ H) as G.
    destruct (g h') as [[[a|]|e]| | |]; cbn [rbind]; try exact Logic.I; try (exists q; split; [exact G | first [reflexivity | exact Logic.I]]).
    eapply (mrel_bind q linked); [apply alloc_rel; reflexivity | | apply incl_refl | exact H].
    intros r x y J K. apply mrel_ret. intros r' J'. cbn. apply J', K. }
  destruct t as [| |k|[|]]; cbn [value_ptr].
  - now apply value_GetString_rel.
  - now apply value_GetBool_rel.
  - apply W. intros q h h' I H. eapply value_GetIntKind_rel; eauto.
  - apply W. intros q h h' I H. eapply value_GetFloat32_rel; eauto.
  - apply W. intros q h h' I H. eapply value_GetFloat64_rel; eauto.
Qed.
Lemma map_ptr_rel X (NA : prints_no_address X) p t m n k : In (m, n) p -> mrel p rgo (map_ptr t X m k) (map_ptr t X n k).
Proof.
  intros L. assert (W : mrel p rgo (fun h => map_via (GVal None, h) (fun v => value_ptr t X v h) h m k)
                                   (fun h => map_via (GVal None, h) (fun v => value_ptr t X v h) h n k)).
  { intros q h h' I H. eapply map_via_rel; [exact H | apply I, L | |].
    - exists q. split; [now apply grows_refl | exact Logic.I].
    - intros v w K. exact (value_ptr_rel X NA q t v w K q h h' (incl_refl _) H). }
  destruct t as [| |[]|]; try exact W. intros q h h' _ _. exact Logic.I.
Qed.
Definition rlist : links -> (list (option nat) * list err) -> (list (option nat) * list err) -> Prop :=
  fun q x y => Forall2 (same_handle q) (fst x) (fst y) /\ snd x = snd y.
Lemma collect_ptrs_rel X (NA : prints_no_address X) p t l l' : Forall2 (same_handle p) l l' ->
  mrel p rlist (collect_ptrs t X l) (collect_ptrs t X l').
Proof.
  revert p l'. induction l as [|o l IH]; intros p l' F; inversion F as [|? o' ? l2 Ro F2]; subst; cbn [collect_ptrs].
  - apply mrel_ret. intros q I. split; [constructor | reflexivity].
  - destruct o as [v|], o' as [w|]; cbn in Ro; try tauto.
    + eapply mrel_bind; [now apply value_ptr_rel|]. intros q r r' I Rr.
      eapply mrel_bind; [apply IH; eapply handles_incl; eauto|]. intros q2 x y J [Rx Ex]. apply mrel_ret. intros q3 J3.
      destruct r as [u|e], r' as [u'|e']; cbn in Rr; try tauto; split; cbn; auto.
      * constructor; [|eapply handles_incl; eauto]. eapply same_handle_incl; [|exact Rr]. eapply incl_tran; eauto.
      * eapply handles_incl; eauto.
      * now rewrite Rr, Ex.
    + eapply mrel_bind; [apply IH; eauto|]. intros q2 x y J [Rx Ex]. apply mrel_ret. intros q3 J3. split; cbn; auto.
      constructor; [exact Logic.I | eapply handles_incl; eauto].
Qed.
Definition rgll : links -> gres (list (option nat)) -> gres (list (option nat)) -> Prop :=
  fun q => grel (Forall2 (same_handle q)).
Lemma arr_ptrs_rel X (NA : prints_no_address X) p t a b : In (a, b) p -> mrel p rgll (arr_ptrs t X a) (arr_ptrs t X b).
Proof.
  intros L.
  assert (W : mrel p rgll (l <- mlift (fun h => rd_arr h a) ;; q <- collect_ptrs t X l ;; ret (finish q))
                          (l <- mlift (fun h => rd_arr h b) ;; q <- collect_ptrs t X l ;; ret (finish q))).
  { eapply mrel_bind; [apply (mrel_lift p (fun q => Forall2 (same_handle q))); intros q h h' I H; apply (rd_arr_rel q h h' H); auto|].
    intros q l l' I R. eapply mrel_bind; [now apply collect_ptrs_rel|]. intros q2 x y J [Rx Ex]. apply mrel_ret. intros q3 J3.
    unfold finish. rewrite Ex. destruct (snd y); cbn; auto. eapply handles_incl; eauto. }
  destruct t as [| |[]|]; try exact W; apply mrel_panic.
Qed.
Definition rgoll : links -> gres (option (list (option nat))) -> gres (option (list (option nat))) -> Prop :=
  fun q => grel (fun o o' => match o, o' with Some l, Some l' => Forall2 (same_handle q) l l' | None, None => True | _, _ => False end).
Lemma map_ptrs_rel X (NA : prints_no_address X) p t m n k : In (m, n) p -> mrel p rgoll (map_ptrs t X m k) (map_ptrs t X n k).
Proof.
  intros L. assert (W : mrel p rgoll
     (r <- mlift (fun h => map_GetArray X h m k) ;;
      match r with
      | GErr e => ret (GErr e)
      | GVal None => ret (GVal None)
      | GVal (Some a) => q <- arr_ptrs t X a ;; ret (match q with GVal l => GVal (Some l) | GErr e => GErr e end)
      end)
     (r <- mlift (fun h => map_GetArray X h n k) ;;
      match r with
      | GErr e => ret (GErr e)
      | GVal None => ret (GVal None)
      | GVal (Some a) => q <- arr_ptrs t X a ;; ret (match q with GVal l => GVal (Some l) | GErr e => GErr e end)
      end)).
  { eapply mrel_bind; [apply (mrel_lift p rgo); intros q h h' I H; apply (map_GetArray_rel X q h h' H); auto|].
    intros q [[a|]|e] [[b|]|e'] I R; cbn in R; try tauto; subst; try (apply mrel_ret; intros; exact Logic.I || reflexivity).
    eapply mrel_bind; [now apply arr_ptrs_rel|]. intros q2 x y J Rx. apply mrel_ret. intros q3 J3.
    destruct x, y; cbn in *; try tauto; auto. eapply handles_incl; eauto. }
  destruct t as [| |[]|]; try exact W; apply mrel_panic.
Qed.

(** ** Clone *)

Section Clone.
  Context (X : ext) (NA : prints_no_address X).
  Context (rec : ckind -> loc -> M (gres loc)).
  Context (Rec : forall k q a b, In (a, b) q -> mrel q rgl (rec k a) (rec k b)).

  Lemma mrel_of {A} p (x y : gres A) (R : links -> gres A -> gres A -> Prop) :
    (forall q, incl p q -> R q x y) -> mrel p R (ret x) (ret y).
  Proof. apply mrel_ret. Qed.

  Lemma clone_map_of_rel p v w : In (v, w) p -> mrel p rgl (clone_map_of rec X v) (clone_map_of rec X w).
  Proof.
    intros L. eapply mrel_bind; [apply (mrel_lift p rgo); intros q h h' I H; apply (value_GetMap_rel X q h h' H); auto|].
    intros q [[a|]|e] [[b|]|e'] I R; cbn in R; try tauto; subst; try (apply mrel_ret; intros; exact Logic.I || reflexivity).
    now apply Rec.
  Qed.
  Lemma clone_arr_of_rel p v w : In (v, w) p -> mrel p rgl (clone_arr_of rec X v) (clone_arr_of rec X w).
  Proof.
    intros L. eapply mrel_bind; [apply (mrel_lift p rgo); intros q h h' I H; apply (value_GetArray_rel X q h h' H); auto|].
    intros q [[a|]|e] [[b|]|e'] I R; cbn in R; try tauto; subst; try (apply mrel_ret; intros; exact Logic.I || reflexivity).
    now apply Rec.
  Qed.
  Definition roi : links -> option iface -> option iface -> Prop :=
    fun q o o' => match o, o' with Some i, Some j => same_held q i j | None, None => True | _, _ => False end.
  Lemma roi_plain p i : no_handle i = true -> mrel p roi (ret (Some i)) (ret (Some i)).
  Proof. intros N. apply mrel_ret. intros q I. cbn. now constructor. Qed.
  Lemma roi_none p : mrel p roi (ret None) (ret None).
  Proof. apply mrel_ret. intros q I. exact Logic.I. Qed.
  Lemma clone_plain_rel p i j : same_held p i j -> mrel p roi (clone_plain X i) (clone_plain X j).
  Proof.
    intros R.
    assert (P : forall t, mrel p roi
        (o <- mlift (fun h => deref h i) ;;
         match o with Some s => l <- alloc (CPtr s) ;; ret (Some (IPtr t (Some l))) | None => mstuck end)
        (o <- mlift (fun h => deref h j) ;;
         match o with Some s => l <- alloc (CPtr s) ;; ret (Some (IPtr t (Some l))) | None => mstuck end)).
    { intros t. eapply mrel_bind; [apply (mrel_lift p req); intros q h h' I H; apply (deref_rel q h h' H); eapply same_held_incl; eauto|].
      intros q s s' I EQ. cbv beta delta [req] in EQ. subst s'. destruct s; [|apply mrel_stuck]. eapply mrel_bind; [apply alloc_rel; reflexivity|].
      intros q2 a b J K. apply mrel_ret. intros q3 J3. cbn. constructor. apply J3, K. }
    unfold clone_plain. rewrite (held_gtype _ _ _ X R). pose proof (NA _ _ _ R) as Sp.
    destruct R as [i N|t a b K| | | | | |].
    - assert (Refl : forall o, (o = None \/ exists x, o = Some x /\ no_handle x = true) -> mrel p roi (ret o) (ret o)).
      { intros o [->|(x & -> & Nx)]; [apply roi_none | now apply roi_plain]. }
      destruct (common_GetType X i) eqn:T; try (apply Refl; right; eauto; fail);
        destruct i as [| |? [?|]|?|[?|]|?|[?|]|?|[?|]| | | | |?|[[| |]|]| | | |[?|]|? ?]; try discriminate N;
        try apply P; try apply mrel_panic; try (apply Refl; left; reflexivity); try (apply Refl; right; eexists; split; [reflexivity|reflexivity]);
        repeat match goal with |- mrel _ _ (if ?b then _ else _) _ => destruct b end;
        try apply mrel_panic; try (apply Refl; left; reflexivity); try (apply Refl; right; eexists; split; [reflexivity|reflexivity]).
    - destruct (common_GetType X (IPtr t (Some b))); try apply P; now apply roi_plain.
    - destruct (common_GetType X (IMap b)); try apply roi_none; now apply roi_plain.
    - destruct (common_GetType X (IPMap (Some b))); try apply roi_none; now apply roi_plain.
    - destruct (common_GetType X (IArr b)); try apply roi_none; now apply roi_plain.
    - destruct (common_GetType X (IPArr (Some b))); try apply roi_none; now apply roi_plain.
    - destruct (common_GetType X (IVal b)); try apply roi_none; now apply roi_plain.
    - destruct (common_GetType X (IPVal (Some b))); try apply roi_none; now apply roi_plain.
  Qed.

  Lemma lift_type p v w : In (v, w) p -> mrel p req (mlift (fun h => value_GetType X h v)) (mlift (fun h => value_GetType X h w)).
  Proof. intros L. apply mrel_lift. intros q h h' I H. apply (value_GetType_rel X q h h' H). auto. Qed.

  Lemma clone_value_body_rel p v w : In (v, w) p -> mrel p rgl (clone_value_body rec X v) (clone_value_body rec X w).
  Proof.
    intros L. unfold clone_value_body.
    eapply mrel_bind; [apply new_value_rel; now constructor|]. intros q c d I K.
    eapply mrel_bind; [apply lift_type; auto|]. intros q2 g g' I2 EQ. cbv beta delta [req] in EQ. subst g'. pose proof (incl_tran I I2) as I02.
    destruct (common_IsMap g).
    - eapply mrel_bind; [apply clone_map_of_rel; auto|]. intros q3 r r' I3 Rr.
      destruct r as [m|e], r' as [n|e']; cbn in Rr; try tauto; subst; [|apply mrel_ret; reflexivity].
      eapply mrel_bind; [apply value_SetObject_rel; [apply I3, I2, K | now constructor]|]. intros q4 ? ? I4 _.
      apply mrel_ret. intros q5 I5. cbn. apply I5, I4, I3, I2, K.
    - destruct (common_IsArray X g).
      + eapply mrel_bind; [apply clone_arr_of_rel; auto|]. intros q3 r r' I3 Rr.
        destruct r as [m|e], r' as [n|e']; cbn in Rr; try tauto; subst; [|apply mrel_ret; reflexivity].
        eapply mrel_bind; [apply value_SetObject_rel; [apply I3, I2, K | now constructor]|]. intros q4 ? ? I4 _.
        apply mrel_ret. intros q5 I5. cbn. apply I5, I4, I3, I2, K.
      + eapply mrel_bind; [apply (mrel_lift q2 same_held); intros q3 h h' I3 H; apply (value_GetObject_rel q3 h h' H); auto|].
        intros q3 i j I3 Ri. eapply mrel_bind; [apply clone_plain_rel; eauto|]. intros q4 o o' I4 Ro.
        destruct o as [x|], o' as [y|]; cbn in Ro; try tauto; [|apply mrel_ret; reflexivity].
        eapply mrel_bind; [apply value_SetObject_rel; [apply I4, I3, I2, K | exact Ro]|]. intros q5 ? ? I5 _.
        apply mrel_ret. intros q6 I6. cbn. apply I6, I5, I4, I3, I2, K.
  Qed.

  Lemma clone_key_rel p m n c d k : In (m, n) p -> In (c, d) p ->
    mrel p req (clone_key rec X m c k) (clone_key rec X n d k).
  Proof.
    intros L K. unfold clone_key.
    assert (Is : forall f q, In (m, n) q -> mrel q req (mlift (fun h => map_is f X h m k)) (mlift (fun h => map_is f X h n k))).
    { intros f q Lq. apply mrel_lift. intros r h h' I H. unfold map_is. apply (map_via_eq r h h' H); auto.
      intros a b Lab. eapply value_is_rel; eauto. }
    eapply mrel_bind; [now apply Is|]. intros q1 b b' I1 EQ. cbv beta delta [req] in EQ. subst b'.
    eapply mrel_bind; [apply Is; auto|]. intros q2 b2 b2' I2 EQ. cbv beta delta [req] in EQ. subst b2'.
    eapply mrel_bind; [apply (mrel_lift q2 rh); intros q h h' I H; apply (map_GetValue_rel q h h' H); auto|]. intros q3 o o' I3 Ro.
    assert (I03 : incl p q3) by (eapply incl_tran; [exact I1|]; eapply incl_tran; eauto).
    assert (Nil : mrel q3 req (map_SetObject c k INil ;; ret (@nil err)) (map_SetObject d k INil ;; ret (@nil err))).
    { eapply mrel_bind; [apply map_SetObject_rel; [apply I03, K | now constructor]|]. intros; apply mrel_ret; reflexivity. }
    destruct o as [v|], o' as [w|]; cbn in Ro; try tauto.
    - destruct b; [|destruct b2].
      + eapply mrel_bind; [apply clone_map_of_rel; auto|]. intros q4 r r' I4 Rr.
        destruct r as [z|e], r' as [z'|e']; cbn in Rr; try tauto; subst; [|apply mrel_ret; reflexivity].
        eapply mrel_bind; [apply map_SetObject_rel; [apply I4, I03, K | now constructor]|]. intros; apply mrel_ret; reflexivity.
      + eapply mrel_bind; [apply clone_arr_of_rel; auto|]. intros q4 r r' I4 Rr.
        destruct r as [z|e], r' as [z'|e']; cbn in Rr; try tauto; subst; [|apply mrel_ret; reflexivity].
        eapply mrel_bind; [apply map_SetObject_rel; [apply I4, I03, K | now constructor]|]. intros; apply mrel_ret; reflexivity.
      + eapply mrel_bind; [apply Rec; auto|]. intros q4 r r' I4 Rr.
        destruct r as [z|e], r' as [z'|e']; cbn in Rr; try tauto; subst; [|apply mrel_ret; reflexivity].
        eapply mrel_bind; [apply map_setInternal_rel; [apply I4, I03, K | exact Rr]|]. intros; apply mrel_ret; reflexivity.
    - destruct b, b2; exact Nil.
  Qed.
  Lemma clone_keys_rel p m n c d ks : In (m, n) p -> In (c, d) p ->
    mrel p req (clone_keys rec X m c ks) (clone_keys rec X n d ks).
  Proof.
    revert p. induction ks as [|k ks IH]; intros p L K; cbn [clone_keys]; [apply mrel_ret; reflexivity|].
    eapply mrel_bind; [now apply clone_key_rel|]. intros q e e' I EQ. cbv beta delta [req] in EQ. subst e'.
    eapply mrel_bind; [apply IH; auto|]. intros q2 x x' I2 EQ. cbv beta delta [req] in EQ. subst x'. apply mrel_ret. reflexivity.
  Qed.
  Lemma clone_map_body_rel p m n : In (m, n) p -> mrel p rgl (clone_map_body rec X m) (clone_map_body rec X n).
  Proof.
    intros L. eapply mrel_bind; [apply new_map_rel|]. intros q c d I K.
    eapply mrel_bind; [apply (mrel_lift q req); intros r h h' J H; apply (map_GetKeys_rel r h h' H); auto|].
    intros q2 ks ks' I2 EQ. cbv beta delta [req] in EQ. subst ks'. eapply mrel_bind; [apply clone_keys_rel; auto|]. intros q3 e e' I3 EQ. cbv beta delta [req] in EQ. subst e'.
    apply mrel_ret. intros q4 I4. destruct e; cbn; auto. apply I4, I3, I2, K.
  Qed.
  Lemma clone_elem_rel p c d o o' : In (c, d) p -> same_handle p o o' ->
    mrel p req (clone_elem rec X c o) (clone_elem rec X d o').
  Proof.
    intros K Ro. destruct o as [v|], o' as [w|]; cbn in Ro; try tauto; [|apply mrel_panic].
    cbn [clone_elem]. eapply mrel_bind; [apply lift_type; auto|]. intros q g g' I EQ. cbv beta delta [req] in EQ. subst g'.
    destruct (common_IsMap g).
    - eapply mrel_bind; [apply clone_map_of_rel; auto|]. intros q4 r r' I4 Rr.
      destruct r as [z|e], r' as [z'|e']; cbn in Rr; try tauto; subst; [|apply mrel_ret; reflexivity].
      eapply mrel_bind; [apply arr_AppendObject_rel; [apply I4, I, K | now constructor]|]. intros; apply mrel_ret; reflexivity.
    - destruct (common_IsArray X g).
      + eapply mrel_bind; [apply clone_arr_of_rel; auto|]. intros q4 r r' I4 Rr.
        destruct r as [z|e], r' as [z'|e']; cbn in Rr; try tauto; subst; [|apply mrel_ret; reflexivity].
        eapply mrel_bind; [apply arr_AppendObject_rel; [apply I4, I, K | now constructor]|]. intros; apply mrel_ret; reflexivity.
      + eapply mrel_bind; [apply Rec; auto|]. intros q4 r r' I4 Rr.
        destruct r as [z|e], r' as [z'|e']; cbn in Rr; try tauto; subst; [|apply mrel_ret; reflexivity].
        eapply mrel_bind; [apply arr_AppendValue_rel; [apply I4, I, K | exact Rr]|]. intros; apply mrel_ret; reflexivity.
  Qed.
  Lemma clone_elems_rel p c d l l' : In (c, d) p -> Forall2 (same_handle p) l l' ->
    mrel p req (clone_elems rec X c l) (clone_elems rec X d l').
  Proof.
    revert p l'. induction l as [|o l IH]; intros p l' K F; inversion F; subst; cbn [clone_elems]; [apply mrel_ret; reflexivity|].
    eapply mrel_bind; [now apply clone_elem_rel|]. intros q e e' I EQ. cbv beta delta [req] in EQ. subst e'.
    eapply mrel_bind; [apply IH; [auto | eapply handles_incl; eauto]|]. intros q2 x x' I2 EQ. cbv beta delta [req] in EQ. subst x'. apply mrel_ret. reflexivity.
  Qed.
  Lemma clone_arr_body_rel p a b : In (a, b) p -> mrel p rgl (clone_arr_body rec X a) (clone_arr_body rec X b).
  Proof.
    intros L. eapply mrel_bind; [apply new_array_rel|]. intros q c d I K.
    eapply mrel_bind; [apply (mrel_lift q (fun r => Forall2 (same_handle r))); intros r h h' J H; apply (rd_arr_rel r h h' H); auto|].
    intros q2 l l' I2 F. eapply mrel_bind; [apply clone_elems_rel; auto|]. intros q3 e e' I3 EQ. cbv beta delta [req] in EQ. subst e'.
    apply mrel_ret. intros q4 I4. destruct e; cbn; auto. apply I4, I3, I2, K.
  Qed.
End Clone.
Lemma clone_rel X (NA : prints_no_address X) n k p a b : In (a, b) p -> mrel p rgl (clone n X k a) (clone n X k b).
Proof.
  revert k p a b. induction n as [|n IH]; intros k p a b L; cbn [clone].
  - intros q h h' _ _. exact Logic.I.
  - destruct k; [now apply clone_value_body_rel | now apply clone_map_body_rel | now apply clone_arr_body_rel].
Qed.

(** ** Parse *)

Definition pst_rel (q : links) (s t : pst) : Prop :=
  p_mode s = p_mode t /\ p_ps s = p_ps t /\ p_tk s = p_tk t /\ p_tv s = p_tv t
  /\ Forall2 (linked q) (p_list s) (p_list t) /\ same_handle q (p_root s) (p_root t)
  /\ p_cnt s = p_cnt t /\ p_errs s = p_errs t.
Lemma F2_linked_incl p q l l' : incl p q -> Forall2 (linked p) l l' -> Forall2 (linked q) l l'.
Proof. intros I. induction 1; constructor; auto. now apply I. Qed.
Lemma pst_rel_incl p q s t : incl p q -> pst_rel p s t -> pst_rel q s t.
Proof.
  intros I (A & B & C & D & E & F & G & H). repeat split; auto; [eapply F2_linked_incl; eauto | eapply same_handle_incl; eauto].
Qed.

Section Parse.
  Context (X : ext).
  Lemma lift_is p f v w : In (v, w) p -> mrel p req (mlift (fun h => value_is f X h v)) (mlift (fun h => value_is f X h w)).
  Proof. intros L. apply mrel_lift. intros q h h' I H. apply (value_is_rel X q h h' H). auto. Qed.
  Lemma lift_map p v w : In (v, w) p -> mrel p rgo (mlift (fun h => value_GetMap X h v)) (mlift (fun h => value_GetMap X h w)).
  Proof. intros L. apply mrel_lift. intros q h h' I H. apply (value_GetMap_rel X q h h' H). auto. Qed.
  Lemma lift_arr p v w : In (v, w) p -> mrel p rgo (mlift (fun h => value_GetArray X h v)) (mlift (fun h => value_GetArray X h w)).
  Proof. intros L. apply mrel_lift. intros q h h' I H. apply (value_GetArray_rel X q h h' H). auto. Qed.

  Lemma store_payload_rel p v w k y : In (v, w) p -> mrel p req (store_payload X v k y) (store_payload X w k y).
  Proof.
    intros L. unfold store_payload. eapply mrel_bind; [apply lift_is; eauto|]. intros q b b' I EQ. cbv beta delta [req] in EQ. subst b'. destruct b.
    - eapply mrel_bind; [apply lift_arr; auto|].
      intros q2 [[a|]|e] [[a'|]|e'] I2 R; cbn in R; try tauto; subst; try (apply mrel_ret; reflexivity).
      destruct y; [apply mrel_ret; reflexivity| |];
        (eapply mrel_bind; [apply arr_AppendObject_rel; [exact R | now constructor]|]); intros; apply mrel_ret; reflexivity.
    - eapply mrel_bind; [apply lift_is; auto|]. intros q1 b b' I1 EQ. cbv beta delta [req] in EQ. subst b'. destruct b; [|apply mrel_ret; reflexivity].
      eapply mrel_bind; [apply lift_map; auto|].
      intros q2 [[a|]|e] [[a'|]|e'] I2 R; cbn in R; try tauto; subst; try (apply mrel_ret; reflexivity).
      destruct y; [apply mrel_ret; reflexivity| |].
      + eapply mrel_bind; [apply map_SetObject_rel; [exact R | now constructor]|]; intros; apply mrel_ret; reflexivity.
      + eapply mrel_bind; [apply map_SetScalarValue_rel; exact R|]; intros; apply mrel_ret; reflexivity.
  Qed.
  Lemma parseJSONValue_rel p k t l l' : Forall2 (linked p) l l' ->
    mrel p req (parseJSONValue X k t l) (parseJSONValue X k t l').
  Proof.
    intros F. destruct F as [|v w l l' L F]; [apply mrel_ret; reflexivity|]. cbn [parseJSONValue].
    eapply mrel_bind; [apply lift_is; eauto|]. intros q b b' I EQ. cbv beta delta [req] in EQ. subst b'.
    eapply mrel_bind; [apply (mrel_lift q req); intros; apply qrel_eq|]. intros q2 r r' I2 EQ. cbv beta delta [req] in EQ. subst r'.
    destruct r as [[k' y]|e]; [|apply mrel_ret; reflexivity]. apply store_payload_rel. apply I2, I, L.
  Qed.
  Lemma next_mode_rel p md l l' : Forall2 (linked p) l l' -> mrel p req (next_mode X md l) (next_mode X md l').
  Proof.
    intros F. destruct F as [|v w l l' L F]; [apply mrel_ret; reflexivity|]. cbn [next_mode].
    eapply mrel_bind; [apply lift_is; eauto|]. intros q b b' I EQ. cbv beta delta [req] in EQ. subst b'. apply mrel_ret. reflexivity.
  Qed.
  Lemma attach_rel p l l' tk fm gm fa ga : Forall2 (linked p) l l' ->
    (forall q m n k, incl p q -> In (m, n) q -> mrel q req (fm m k) (gm n k)) ->
    (forall q m n, incl p q -> In (m, n) q -> mrel q req (fa m) (ga n)) ->
    mrel p req (attach X l tk fm fa) (attach X l' tk gm ga).
  Proof.
    intros F Gm Ga. destruct F as [|v w l l' L F]; [apply mrel_ret; reflexivity|]. cbn [attach].
    eapply mrel_bind; [apply lift_is; eauto|]. intros q b b' I EQ. cbv beta delta [req] in EQ. subst b'. destruct b.
    - eapply mrel_bind; [apply (mrel_lift q req); intros; apply qrel_eq|]. intros q2 u u' I2 EQ. cbv beta delta [req] in EQ. subst u'.
      destruct u as [k|e]; [|apply mrel_ret; reflexivity].
      eapply mrel_bind; [apply lift_map; apply I2, I, L|].
      intros q3 [[a|]|e] [[a'|]|e'] I3 R; cbn in R; try tauto; subst; try (apply mrel_ret; reflexivity); [|apply mrel_panic].
      eapply mrel_bind; [apply Gm; [|exact R]; eapply incl_tran; [exact I|]; eapply incl_tran; eauto|]. intros; apply mrel_ret; reflexivity.
    - eapply mrel_bind; [apply lift_arr; apply I, L|].
      intros q3 [[a|]|e] [[a'|]|e'] I3 R; cbn in R; try tauto; subst; try (apply mrel_ret; reflexivity); [|apply mrel_panic].
      eapply mrel_bind; [apply Ga; [|exact R]; eapply incl_tran; [exact I|]; eauto|]. intros; apply mrel_ret; reflexivity.
  Qed.

  Ltac psplit := repeat split; cbn; auto; try congruence.

  Lemma end_value_rel p pop s t : pst_rel p s t -> mrel p pst_rel (end_value X pop s) (end_value X pop t).
  Proof.
    intros (A & B & C & D & E & F & G & H). unfold end_value. rewrite A, B, C, D, G, H.
    eapply mrel_bind; [apply parseJSONValue_rel; eauto|]. intros q e e' I EQ. cbv beta delta [req] in EQ. subst e'.
    eapply mrel_bind with (R := fun r => Forall2 (linked r)).
    { destruct pop.
      - destruct E as [|x y l l' Lx E]; [apply mrel_panic|]. apply mrel_ret. intros r J.
        eapply F2_linked_incl; [|exact E]. eapply incl_tran; eauto.
      - apply mrel_ret. intros r J. eapply F2_linked_incl; [|exact E]. eapply incl_tran; eauto. }
    intros q2 l l' I2 El. eapply mrel_bind; [apply next_mode_rel; eauto|]. intros q3 md md' I3 EQ. cbv beta delta [req] in EQ. subst md'.
    apply mrel_ret. intros q4 I4. psplit.
    - eapply F2_linked_incl; [|exact El]. eapply incl_tran; eauto.
    - eapply same_handle_incl; [|exact F]. eapply incl_tran; [exact I|]. eapply incl_tran; [exact I2|]. eapply incl_tran; eauto.
  Qed.
  Lemma open_map_rel p s t : pst_rel p s t -> mrel p pst_rel (open_map X s) (open_map X t).
  Proof.
    intros (A & B & C & D & E & F & G & H). unfold open_map. rewrite B, C, G, H.
    eapply mrel_bind; [apply new_map_rel|]. intros q m n I Lm.
    eapply mrel_bind; [apply new_value_rel; constructor; exact Lm|]. intros q2 v w I2 Lv.
    assert (I02 : incl p q2) by (eapply incl_tran; eauto).
    eapply mrel_bind; [eapply attach_rel; [eapply F2_linked_incl; eauto | |]|].
    - intros r a b k J K. apply map_setInternal_rel; auto. cbn. apply J, Lv.
    - intros r a b J K. apply arr_AppendValue_rel; auto. cbn. apply J, Lv.
    - intros q3 e e' I3 EQ. cbv beta delta [req] in EQ. subst e'. apply mrel_ret. intros q4 I4. psplit.
      + constructor; [apply I4, I3, Lv|]. eapply F2_linked_incl; [|exact E]. eapply incl_tran; [exact I02|]. eapply incl_tran; eauto.
      + destruct (p_root s), (p_root t); cbn in *; try tauto.
        * apply I4, I3, I02, F.
        * apply I4, I3, I2, Lm.
  Qed.
  Lemma open_array_rel p s t : pst_rel p s t -> mrel p pst_rel (open_array X s) (open_array X t).
  Proof.
    intros (A & B & C & D & E & F & G & H). unfold open_array. rewrite B, C, G, H.
    assert (W : mrel p pst_rel
       (a <- new_array ;; v <- new_value (IArr a) ;;
        e <- attach X (p_list s) (p_tk t) (fun top k => map_SetArrayValue top k a) (fun top => arr_AppendValue top (Some v)) ;;
        ret (PSt MNext (p_ps t) [] [] (v :: p_list s) (p_root s) (p_cnt t) (p_errs t ++ e)))
       (a <- new_array ;; v <- new_value (IArr a) ;;
        e <- attach X (p_list t) (p_tk t) (fun top k => map_SetArrayValue top k a) (fun top => arr_AppendValue top (Some v)) ;;
        ret (PSt MNext (p_ps t) [] [] (v :: p_list t) (p_root t) (p_cnt t) (p_errs t ++ e)))).
    { eapply mrel_bind; [apply new_array_rel|]. intros q m n I Lm.
      eapply mrel_bind; [apply new_value_rel; constructor; exact Lm|]. intros q2 v w I2 Lv.
      assert (I02 : incl p q2) by (eapply incl_tran; eauto).
      eapply mrel_bind; [eapply attach_rel; [eapply F2_linked_incl; eauto | |]|].
      - intros r a b k J K. apply map_SetObject_rel; auto. constructor. apply J, I2, Lm.
      - intros r a b J K. apply arr_AppendValue_rel; auto. cbn. apply J, Lv.
      - intros q3 e e' I3 EQ. cbv beta delta [req] in EQ. subst e'. apply mrel_ret. intros q4 I4. psplit.
        + constructor; [apply I4, I3, Lv|]. eapply F2_linked_incl; [|exact E]. eapply incl_tran; [exact I02|]. eapply incl_tran; eauto.
        + eapply same_handle_incl; [|exact F]. eapply incl_tran; [exact I02|]. eapply incl_tran; eauto. }
    destruct E; [apply mrel_panic | exact W].
  Qed.
  Lemma close_keys_rel p s t : pst_rel p s t -> mrel p pst_rel (close_keys X s) (close_keys X t).
  Proof.
    intros (A & B & C & D & E & F & G & H). unfold close_keys. rewrite A, B, G, H.
    destruct E as [|x y l l' Lx E]; [apply mrel_panic|].
    eapply mrel_bind; [apply next_mode_rel; eauto|]. intros q md md' I EQ. cbv beta delta [req] in EQ. subst md'. apply mrel_ret. intros q2 I2. psplit.
    - eapply F2_linked_incl; [|exact E]. eapply incl_tran; eauto.
    - eapply same_handle_incl; [|exact F]. eapply incl_tran; eauto.
  Qed.
  Lemma pst_ret p s t : pst_rel p s t -> mrel p pst_rel (ret s) (ret t).
  Proof. intros H. apply mrel_ret. intros q I. eapply pst_rel_incl; eauto. Qed.
  Lemma set_mode_rel p m s t : pst_rel p s t -> pst_rel p (set_mode m s) (set_mode m t).
  Proof. intros (A & B & C & D & E & F & G & H). psplit. Qed.
  Lemma add_key_rel p m s t : pst_rel p s t -> pst_rel p (add_key m s) (add_key m t).
  Proof. intros (A & B & C & D & E & F & G & H). psplit. Qed.
  Lemma add_val_rel p m s t : pst_rel p s t -> pst_rel p (add_val m s) (add_val m t).
  Proof. intros (A & B & C & D & E & F & G & H). psplit. Qed.
  Lemma set_ps_rel p m c s t : pst_rel p s t -> pst_rel p (set_ps m c s) (set_ps m c t).
  Proof. intros (A & B & C & D & E & F & G & H). psplit. Qed.

  Lemma step_mode_rel p b c s t : pst_rel p s t -> mrel p pst_rel (step_mode X b c s) (step_mode X b c t).
  Proof.
    intros R. pose proof R as (A & B & _). unfold step_mode. rewrite A. cbn [set_mode p_ps]. rewrite B.
    destruct (p_mode t);
      repeat match goal with |- mrel _ _ (if ?x then _ else _) _ => destruct x
                           | |- mrel _ _ (ret (if ?x then _ else _)) _ => destruct x
                           | |- mrel _ _ (ret (add_key _ (if ?x then _ else _))) _ => destruct x end;
      auto using close_keys_rel, pst_ret, add_key_rel, add_val_rel, set_mode_rel, open_map_rel, open_array_rel, end_value_rel.
  Qed.
  Lemma step_rel p prev b s t : pst_rel p s t -> mrel p pst_rel (step X prev b s) (step X prev b t).
  Proof.
    intros R. pose proof R as (A & B & _ & _ & _ & _ & G & _). unfold step. cbn [set_ps p_mode]. rewrite A, B, G.
    repeat match goal with |- mrel _ _ (if ?x then _ else _) _ => destruct x end;
      try (apply step_mode_rel; now apply set_ps_rel); try (now apply step_mode_rel).
    destruct (p_mode t); try (apply step_mode_rel; now apply set_ps_rel); apply end_value_rel; apply add_val_rel; now apply set_ps_rel.
  Qed.
  Lemma parse_loop_rel p prev u s t : pst_rel p s t -> mrel p pst_rel (parse_loop X prev u s) (parse_loop X prev u t).
  Proof.
    revert p prev s t. induction u as [|b u IH]; intros p prev s t R; cbn [parse_loop]; [now apply pst_ret|].
    eapply mrel_bind; [now apply step_rel|]. intros q s' t' I R'. now apply IH.
  Qed.
  Lemma Parse_rel p u : mrel p rgo (Parse X u) (Parse X u).
  Proof.
    unfold Parse.
    destruct (match u with [] => [EEmpty] | _ => [] end ++ (if has_prefix [c_lb] u then [] else [ENoOpen])
              ++ (if has_suffix [c_rb] u then [] else [ENoClose])); [|apply mrel_ret; reflexivity].
    destruct (str_eqb u (lit "{}")).
    - eapply mrel_bind; [apply new_map_rel|]. intros q m n I L. apply mrel_ret. intros q2 I2. cbn. apply I2, L.
    - eapply mrel_bind; [apply (parse_loop_rel p None u pst0 pst0); psplit|]. intros q s t I (_ & _ & _ & _ & _ & F & G & H).
      rewrite G, H. destruct (p_errs t); [|apply mrel_ret; reflexivity]. cbn zeta.
      destruct ((if n_lb (p_cnt t) =? n_rb (p_cnt t) then [] else [EBrackets])
                ++ (if n_ls (p_cnt t) =? n_rs (p_cnt t) then [] else [ESquares])
                ++ (if n_oq (p_cnt t) =? n_cq (p_cnt t) then [] else [EQuotes]))%nat; [|apply mrel_ret; reflexivity].
      apply mrel_ret. intros q2 I2. eapply same_handle_incl; eauto.
  Qed.
End Parse.
