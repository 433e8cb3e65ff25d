(** * The library against the world of SpecWorld.v *)
From Coq Require Import Ascii String List NArith ZArith Bool Lia.
From Verif Require Import GoStr StrLemmas GoNum GoFloat Heap Common ValueModel ArrayModel MapModel
  SpecDict DictLemmas SpecWorld Inv.
Import ListNotations.

(** Each API call in terms of the model's functions. *)
Definition flag (o : option err) : out :=
  match o with None => OFlag true false | Some _ => OFlag false true end.
Definition run_call (c : api) : M out :=
  match c with
  | ANewVar s => p <- alloc (CPtr s) ;; ret (OHandle p)
  | AVarSet p s => wr p (CPtr s) ;; ret ODone
  | AVarGet p => s <- mlift (fun h => rd_ptr h p) ;; ret (OScalar s)
  | ANewValue i => v <- new_value i ;; ret (OHandle v)
  | ANewArray => a <- new_array ;; ret (OHandle a)
  | ANewMap => m <- new_map ;; ret (OHandle m)
  | AMapSetValue m k o => map_SetValue m k o ;; ret ODone
  | AMapSet m k i => map_SetObject m k i ;; ret ODone
  | AMapSetScalarValue m k s => map_SetScalarValue m k s ;; ret ODone
  | AMapRemoveKey m k =>
      r <- map_RemoveKey m k ;;
      ret (OFlag (fst r) (match snd r with Some _ => true | None => false end))
  | AMapHasKey m k => b <- mlift (fun h => map_HasKey h m k) ;; ret (OBool b)
  | AMapGetValue m k => o <- mlift (fun h => map_GetValue h m k) ;; ret (OValue o)
  | AMapGetKeys m => l <- mlift (fun h => map_GetKeys h m) ;; ret (OKeys l)
  | AMapValues m => a <- mlift (fun h => map_Values h m) ;;
                    l <- mlift (fun h => arr_GetValues h a) ;; ret (OElems l)
  | AArrAppendValue a o => arr_AppendValue a o ;; ret ODone
  | AArrAppend a i => arr_AppendObject a i ;; ret ODone
  | AArrSetValueAtIndex a n o => e <- arr_SetValueAtIndex a n o ;; ret (flag e)
  | AArrRemoveValueAtIndex a n => e <- arr_RemoveValueAtIndex a n ;; ret (flag e)
  | AArrLen a => z <- mlift (fun h => arr_Len h a) ;; ret (OLen z)
  | AArrGetValues a => l <- mlift (fun h => arr_GetValues h a) ;; ret (OElems l)
  | AValSetObject v i => value_SetObject v i ;; ret ODone
  | AValGetObject v => i <- mlift (fun h => value_GetObject h v) ;; ret (OObj i)
  end.
Fixpoint run_calls (cs : list api) : M (list out) :=
  match cs with
  | [] => ret []
  | c :: t => o <- run_call c ;; os <- run_calls t ;; ret (o :: os)
  end.

(** A heap implements a world. *)
Record impl (h : heap) (w : world) : Prop := {
  im_next : w_next w = length h;
  im_map : forall l d, w_map w l = Some d <-> map_dict h l d;
  im_arr : forall l xs, w_arr w l = Some xs <-> nth_error h l = Some (CArr xs) /\ ~ owned h l;
  im_val : forall l i, w_val w l = Some i <-> nth_error h l = Some (CVal i);
  im_var : forall l s, w_var w l = Some s <-> nth_error h l = Some (CPtr s) }.

Lemma impl_empty : impl [] empty_world.
Proof.
  split; cbn; auto; intros l x; split; try discriminate; try (destruct l; discriminate).
  - intros (mo & H & _). destruct l; discriminate.
  - intros [H _]. destruct l; discriminate.
Qed.

Lemma has_map h w m : impl h w -> has (w_map w) m -> map_dict h m (map_at w m).
Proof. intros I [d Hd]. unfold map_at. rewrite Hd. cbn. now apply (im_map _ _ I). Qed.

Lemma has_arr h w a : impl h w -> has (w_arr w) a ->
  nth_error h a = Some (CArr (arr_at w a)) /\ ~ owned h a.
Proof. intros I [d Hd]. unfold arr_at. rewrite Hd. cbn. now apply (im_arr _ _ I). Qed.

Lemma has_val h w v : impl h w -> has (w_val w) v ->
  nth_error h v = Some (CVal (the INil (w_val w v))).
Proof. intros I [d Hd]. rewrite Hd. cbn. now apply (im_val _ _ I). Qed.

Lemma ok_value_handle_impl h w o : impl h w -> ok_value_handle w o -> ok_oloc h o.
Proof.
  intros I H. destruct o as [v|]; cbn in *; auto. apply (has_val _ _ _ I) in H. eauto.
Qed.

Lemma ok_object_impl h w i : impl h w -> ok_object w i -> ok_iface h i.
Proof.
  intros I H. destruct i as [| |t [p|]|m|[m|]|a|[a|]|v|[v|]| | |[?|]|[?|]| |[?|]| | |[?|]|[?|]|? [?|]]; cbn in *; auto.
  - destruct H as (s & H & E). apply (im_var _ _ I) in H. eauto.
  - apply (has_map _ _ _ I) in H as (mo & H & _). eauto.
  - apply (has_map _ _ _ I) in H as (mo & H & _). eauto.
  - apply (has_arr _ _ _ I) in H as (H & N). split; eauto.
  - apply (has_arr _ _ _ I) in H as (H & N). split; eauto.
  - apply (has_val _ _ _ I) in H. eauto.
  - apply (has_val _ _ _ I) in H. eauto.
Qed.

(** ** Allocation *)

Lemma owned_alloc h c a :
  (forall mo, c <> CMap mo) -> owned (h ++ [c]) a <-> owned h a.
Proof.
  intros Hc. split; intros (m & mo & Hm & E).
  - rewrite nth_error_alloc in Hm. destruct (Nat.ltb m (length h)); [exists m, mo; auto|].
    destruct (Nat.eqb m (length h)); inversion Hm. exfalso. eapply Hc; eauto.
  - exists m, mo. split; auto. now apply nth_error_alloc_old.
Qed.

Lemma map_dict_alloc h c m d :
  Inv h -> (forall mo, c <> CMap mo) -> map_dict (h ++ [c]) m d <-> map_dict h m d.
Proof.
  intros I Hc. split; intros (mo & Hm & H).
  - rewrite nth_error_alloc in Hm. destruct (Nat.ltb_spec m (length h)).
    + exists mo. split; auto. destruct (inv_map _ I _ _ Hm) as [d0 (_ & Ha & _)].
      eapply map_holds_ext; eauto. symmetry. rewrite Ha. now apply nth_error_alloc_old.
    + destruct (Nat.eqb m (length h)); inversion Hm. exfalso. eapply Hc; eauto.
  - exists mo. split; [now apply nth_error_alloc_old|].
    eapply map_holds_ext; eauto. destruct H as (_ & Ha & _). rewrite Ha.
    now apply nth_error_alloc_old.
Qed.

Lemma impl_alloc_val h w i : Inv h -> impl h w -> impl (h ++ [CVal i]) (new_val w i).
Proof.
  intros I P. split; cbn.
  - rewrite (im_next _ _ P), app_length. cbn. lia.
  - intros l d. rewrite (im_map _ _ P). now rewrite map_dict_alloc by (auto || discriminate).
  - intros l xs. rewrite (im_arr _ _ P), owned_alloc by discriminate.
    rewrite nth_error_alloc. destruct (Nat.ltb_spec l (length h)); [tauto|].
    destruct (Nat.eqb l (length h)); split; intros [H1 _]; try discriminate;
      apply nth_error_lt in H1; lia.
  - intros l j. unfold put. rewrite (im_next _ _ P), nth_error_alloc.
    destruct (Nat.ltb_spec l (length h)).
    + destruct (Nat.eqb_spec l (length h)); [lia|]. apply (im_val _ _ P).
    + destruct (Nat.eqb_spec l (length h)); [split; congruence|].
      rewrite (im_val _ _ P). split; [|discriminate]. intros X. apply nth_error_lt in X. lia.
  - intros l s. rewrite (im_var _ _ P), nth_error_alloc.
    destruct (Nat.ltb_spec l (length h)); [tauto|].
    destruct (Nat.eqb l (length h)); split; intros X; try discriminate; apply nth_error_lt in X; lia.
Qed.

Lemma impl_alloc_var h w s : Inv h -> impl h w -> impl (h ++ [CPtr s]) (new_var w s).
Proof.
  intros I P. split; cbn.
  - rewrite (im_next _ _ P), app_length. cbn. lia.
  - intros l d. rewrite (im_map _ _ P). now rewrite map_dict_alloc by (auto || discriminate).
  - intros l xs. rewrite (im_arr _ _ P), owned_alloc by discriminate.
    rewrite nth_error_alloc. destruct (Nat.ltb_spec l (length h)); [tauto|].
    destruct (Nat.eqb l (length h)); split; intros [H1 _]; try discriminate;
      apply nth_error_lt in H1; lia.
  - intros l j. rewrite (im_val _ _ P), nth_error_alloc.
    destruct (Nat.ltb_spec l (length h)); [tauto|].
    destruct (Nat.eqb l (length h)); split; intros X; try discriminate; apply nth_error_lt in X; lia.
  - intros l j. unfold put. rewrite (im_next _ _ P), nth_error_alloc.
    destruct (Nat.ltb_spec l (length h)).
    + destruct (Nat.eqb_spec l (length h)); [lia|]. apply (im_var _ _ P).
    + destruct (Nat.eqb_spec l (length h)); [split; congruence|].
      rewrite (im_var _ _ P). split; [|discriminate]. intros X. apply nth_error_lt in X. lia.
Qed.

Lemma not_owned_new h : Inv h -> ~ owned h (length h).
Proof.
  intros I (m & mo & Hm & E). destruct (inv_map _ I _ _ Hm) as [d (_ & Ha & _)].
  apply nth_error_lt in Ha. lia.
Qed.

Lemma impl_alloc_arr h w : Inv h -> impl h w ->
  impl (h ++ [CArr []]) (snd (spec_call ANewArray w)).
Proof.
  intros I P. split; cbn.
  - rewrite (im_next _ _ P), app_length. cbn. lia.
  - intros l d. rewrite (im_map _ _ P). now rewrite map_dict_alloc by (auto || discriminate).
  - intros l xs. unfold put. rewrite (im_next _ _ P), owned_alloc, nth_error_alloc by discriminate.
    destruct (Nat.ltb_spec l (length h)).
    + destruct (Nat.eqb_spec l (length h)); [lia|]. apply (im_arr _ _ P).
    + destruct (Nat.eqb_spec l (length h)).
      * split; [intros X; inversion X; subst; split; auto; now apply not_owned_new | intros [X _]; inversion X; subst; reflexivity].
      * rewrite (im_arr _ _ P). split; [|intros [X _]; discriminate].
        intros [X _]. apply nth_error_lt in X. lia.
  - intros l j. rewrite (im_val _ _ P), nth_error_alloc.
    destruct (Nat.ltb_spec l (length h)); [tauto|].
    destruct (Nat.eqb l (length h)); split; intros X; try discriminate; apply nth_error_lt in X; lia.
  - intros l j. rewrite (im_var _ _ P), nth_error_alloc.
    destruct (Nat.ltb_spec l (length h)); [tauto|].
    destruct (Nat.eqb l (length h)); split; intros X; try discriminate; apply nth_error_lt in X; lia.
Qed.

Lemma nth_error_new_map h l :
  nth_error ((h ++ [CArr []]) ++ [CMap (MObj [] [] (length h))]) l =
  if Nat.ltb l (length h) then nth_error h l
  else if Nat.eqb l (length h) then Some (CArr [])
  else if Nat.eqb l (S (length h)) then Some (CMap (MObj [] [] (length h))) else None.
Proof.
  rewrite nth_error_alloc, app_length. cbn [length]. rewrite Nat.add_1_r, nth_error_alloc.
  destruct (Nat.ltb_spec l (S (length h))), (Nat.ltb_spec l (length h)); auto; try lia.
  - destruct (Nat.eqb_spec l (length h)); auto. lia.
  - destruct (Nat.eqb_spec l (length h)); auto. lia.
Qed.

Lemma impl_new_map h w : Inv h -> impl h w ->
  impl ((h ++ [CArr []]) ++ [CMap (MObj [] [] (length h))]) (snd (spec_call ANewMap w)).
Proof.
  intros I P. pose proof (Inv_new_map h I) as [I' X'].
  pose proof (nth_error_new_map h) as E.
  set (h' := (h ++ [CArr []]) ++ [CMap (MObj [] [] (length h))]) in *.
  assert (OW : forall a, owned h' a <-> owned h a \/ a = length h).
  { intros a. split.
    - intros (m & mo & Hm & Ea). rewrite E in Hm. destruct (Nat.ltb m (length h)).
      + left. exists m, mo. auto.
      + destruct (Nat.eqb m (length h)); [discriminate|].
        destruct (Nat.eqb m (S (length h))); inversion Hm; subst. right. reflexivity.
    - intros [(m & mo & Hm & Ea)|Ea].
      + exists m, mo. split; auto. rewrite E. pose proof (nth_error_lt _ _ _ Hm) as L.
        apply Nat.ltb_lt in L. now rewrite L.
      + exists (S (length h)), (MObj [] [] (length h)). split; auto. rewrite E.
        destruct (Nat.ltb_spec (S (length h)) (length h)); [lia|].
        destruct (Nat.eqb_spec (S (length h)) (length h)); [lia|]. now rewrite Nat.eqb_refl. }
  assert (MD : forall l d, (l < length h)%nat -> map_dict h' l d <-> map_dict h l d).
  { intros l d L. split; intros (mo & Hm & H).
    - rewrite E in Hm. apply Nat.ltb_lt in L. rewrite L in Hm. exists mo. split; auto.
      destruct (inv_map _ I _ _ Hm) as [d0 (_ & Ha & _)]. eapply map_holds_ext; eauto.
      rewrite E. apply nth_error_lt in Ha. apply Nat.ltb_lt in Ha. now rewrite Ha.
    - exists mo. rewrite E. apply Nat.ltb_lt in L. rewrite L. split; auto.
      eapply map_holds_ext; eauto. destruct H as (_ & Ha & _).
      rewrite E. apply nth_error_lt in Ha. apply Nat.ltb_lt in Ha. now rewrite Ha. }
  split; cbn.
  - rewrite (im_next _ _ P). unfold h'. rewrite !app_length. cbn. lia.
  - intros l d. unfold put. rewrite (im_next _ _ P).
    destruct (Nat.eqb_spec l (S (length h))).
    + subst. split.
      * intros H. inversion H; subst. exists (MObj [] [] (length h)). rewrite !E.
        destruct (Nat.ltb_spec (S (length h)) (length h)); [lia|].
        destruct (Nat.eqb_spec (S (length h)) (length h)); [lia|].
        rewrite Nat.eqb_refl. split; auto. repeat split; cbn; auto; try constructor.
        rewrite E. destruct (Nat.ltb_spec (length h) (length h)); [lia|]. now rewrite Nat.eqb_refl.
      * intros (mo & Hm & H). f_equal. destruct H as (Hk & _). rewrite E in Hm.
        destruct (Nat.ltb_spec (S (length h)) (length h)); [lia|].
        destruct (Nat.eqb_spec (S (length h)) (length h)); [lia|].
        rewrite Nat.eqb_refl in Hm. inversion Hm; subst. cbn in Hk. destruct d; auto. discriminate.
    + rewrite (im_map _ _ P). destruct (Nat.le_gt_cases (length h) l) as [G|G].
      * split; intros (mo & Hm & _).
        -- apply nth_error_lt in Hm. lia.
        -- rewrite E in Hm. destruct (Nat.ltb_spec l (length h)); [lia|].
           destruct (Nat.eqb l (length h)); [discriminate|].
           destruct (Nat.eqb_spec l (S (length h))); congruence.
      * symmetry. now apply MD.
  - intros l xs. rewrite (im_arr _ _ P), OW, E. destruct (Nat.ltb_spec l (length h)).
    + split; intros [H1 H2]; split; auto. intros [H3|H3]; [auto|lia].
    + split; intros [H1 H2].
      * apply nth_error_lt in H1. lia.
      * destruct (Nat.eqb_spec l (length h)); [tauto|].
        destruct (Nat.eqb l (S (length h))); discriminate.
  - intros l j. rewrite (im_val _ _ P), E. destruct (Nat.ltb_spec l (length h)); [tauto|].
    split; intros H1; [apply nth_error_lt in H1; lia|].
    destruct (Nat.eqb l (length h)); [discriminate|]. destruct (Nat.eqb l (S (length h))); discriminate.
  - intros l j. rewrite (im_var _ _ P), E. destruct (Nat.ltb_spec l (length h)); [tauto|].
    split; intros H1; [apply nth_error_lt in H1; lia|].
    destruct (Nat.eqb l (length h)); [discriminate|]. destruct (Nat.eqb l (S (length h))); discriminate.
Qed.

(** ** Updates *)

Lemma owned_ext_iff h h' a : length h' = length h -> hext h h' -> owned h' a <-> owned h a.
Proof.
  intros L X. split.
  - intros O. destruct (Nat.le_gt_cases (length h) a) as [G|G]; [|eapply owned_ext; eauto].
    destruct O as (m & mo & Hm & E). pose proof (nth_error_lt _ _ _ Hm) as Lm.
    destruct X as [A _]. destruct (nth_error h m) as [c|] eqn:Ec; [|apply nth_error_None in Ec; lia].
    destruct (A _ _ Ec) as (c' & Ec' & K). rewrite Hm in Ec'. inversion Ec'; subst c'.
    destruct c; try discriminate. cbn in K. inversion K. exists m, m0. split; auto. congruence.
  - intros (m & mo & Hm & E). destruct X as [A _]. destruct (A _ _ Hm) as (c' & Ec' & K).
    destruct c'; try discriminate. cbn in K. inversion K. exists m, m0. split; auto. congruence.
Qed.

(** A map changed, nothing else did. *)
Lemma impl_set_map h w m d d' h' :
  Inv h -> impl h w -> map_dict h m d ->
  hext h h' -> map_dict h' m d' -> length h' = length h ->
  (forall l, l <> m -> (forall mo, nth_error h m = Some (CMap mo) -> l <> m_vals mo) ->
     nth_error h' l = nth_error h l) ->
  impl h' (set_map w m d').
Proof.
  intros I P (mo & Hm & Hd) X D' L Fr.
  assert (Ow : owned h (m_vals mo)) by (exists m, mo; auto).
  assert (Fr' : forall l, l <> m -> l <> m_vals mo -> nth_error h' l = nth_error h l).
  { intros l N1 N2. apply Fr; auto. intros mo2 E. rewrite Hm in E. now inversion E; subst. }
  destruct D' as (mo' & Hm' & Hd'). destruct X as [Xa Xb].
  destruct (Xa _ _ Hm) as (c' & Ec & Kc). rewrite Hm' in Ec. inversion Ec; subst c'. cbn in Kc.
  assert (Ev : m_vals mo' = m_vals mo) by congruence.
  assert (Av : nth_error h' (m_vals mo) = Some (CArr (dict_values d'))).
  { rewrite <- Ev. now destruct Hd' as (_ & ? & _). }
  assert (Av0 : nth_error h (m_vals mo) = Some (CArr (dict_values d))).
  { now destruct Hd as (_ & ? & _). }
  split; cbn.
  - rewrite L. apply (im_next _ _ P).
  - intros l e. unfold put. destruct (Nat.eqb_spec l m).
    + subst. split.
      * intros E. inversion E; subst. exists mo'. auto.
      * intros D. f_equal. eapply map_dict_fun; eauto. exists mo'. auto.
    + rewrite (im_map _ _ P). split; intros (mo2 & Hm2 & H2).
      * exists mo2. assert (l <> m_vals mo) by congruence. rewrite Fr' by auto. split; auto.
        eapply map_holds_ext; eauto. apply Fr'.
        -- destruct H2 as (_ & H2 & _). congruence.
        -- intros E. apply n. eapply inv_own; eauto.
      * assert (l <> m_vals mo) by congruence. rewrite Fr' in Hm2 by auto. exists mo2. split; auto.
        destruct (inv_map _ I _ _ Hm2) as [d0 (_ & H0 & _)].
        eapply map_holds_ext; eauto. symmetry. apply Fr'.
        -- congruence.
        -- intros E. apply n. eapply inv_own; eauto.
  - intros l xs. rewrite (im_arr _ _ P), (owned_ext_iff h h' l L (conj Xa Xb)).
    destruct (Nat.eq_dec l m); [subst; split; intros [? _]; congruence|].
    destruct (Nat.eq_dec l (m_vals mo)); [subst; tauto|]. now rewrite Fr'.
  - intros l j. rewrite (im_val _ _ P).
    destruct (Nat.eq_dec l m); [subst; split; congruence|].
    destruct (Nat.eq_dec l (m_vals mo)); [subst; split; congruence|]. now rewrite Fr'.
  - intros l j. rewrite (im_var _ _ P).
    destruct (Nat.eq_dec l m); [subst; split; congruence|].
    destruct (Nat.eq_dec l (m_vals mo)); [subst; split; congruence|]. now rewrite Fr'.
Qed.

Lemma impl_set_arr h w a l l' :
  Inv h -> impl h w -> nth_error h a = Some (CArr l) -> ~ owned h a ->
  impl (upd h a (CArr l')) (set_arr w a l').
Proof.
  intros I P Ha NO. pose proof (nth_error_lt _ _ _ Ha) as La.
  assert (X : hext h (upd h a (CArr l'))) by (eapply hext_upd; eauto).
  assert (L : length (upd h a (CArr l')) = length h) by apply upd_length.
  assert (E : forall x, nth_error (upd h a (CArr l')) x =
                        if Nat.eqb a x then Some (CArr l') else nth_error h x)
    by (intros; now apply nth_error_upd).
  split; cbn.
  - rewrite L. apply (im_next _ _ P).
  - intros x d. rewrite (im_map _ _ P). split; intros (mo & Hm & H).
    + exists mo. rewrite E. destruct (Nat.eqb_spec a x); [congruence|]. split; auto.
      eapply map_holds_ext; eauto. rewrite E. destruct (Nat.eqb_spec a (m_vals mo)); auto.
      exfalso. apply NO. exists x, mo. auto.
    + rewrite E in Hm. destruct (Nat.eqb_spec a x); [congruence|]. exists mo. split; auto.
      eapply map_holds_ext; eauto. rewrite E. destruct (Nat.eqb_spec a (m_vals mo)); auto.
      exfalso. apply NO. exists x, mo. auto.
  - intros x xs. unfold put. rewrite (owned_ext_iff h _ x L X), E, (Nat.eqb_sym a x).
    destruct (Nat.eqb_spec x a).
    + subst. split; [intros H; inversion H; auto | intros [H _]; congruence].
    + apply (im_arr _ _ P).
  - intros x j. rewrite (im_val _ _ P), E. destruct (Nat.eqb_spec a x); [subst; split; congruence|tauto].
  - intros x j. rewrite (im_var _ _ P), E. destruct (Nat.eqb_spec a x); [subst; split; congruence|tauto].
Qed.

Lemma impl_set_val h w v j i :
  Inv h -> impl h w -> nth_error h v = Some (CVal j) ->
  impl (upd h v (CVal i)) (World (w_next w) (w_map w) (w_arr w) (put (w_val w) v i) (w_var w)).
Proof.
  intros I P Ha. pose proof (nth_error_lt _ _ _ Ha) as La.
  assert (X : hext h (upd h v (CVal i))) by (eapply hext_upd; eauto).
  assert (L : length (upd h v (CVal i)) = length h) by apply upd_length.
  assert (E : forall x, nth_error (upd h v (CVal i)) x =
                        if Nat.eqb v x then Some (CVal i) else nth_error h x)
    by (intros; now apply nth_error_upd).
  split; cbn.
  - rewrite L. apply (im_next _ _ P).
  - intros x d. rewrite (im_map _ _ P). split; intros (mo & Hm & H).
    + exists mo. rewrite E. destruct (Nat.eqb_spec v x); [congruence|]. split; auto.
      eapply map_holds_ext; eauto. rewrite E. destruct (Nat.eqb_spec v (m_vals mo)); auto.
      destruct H as (_ & H & _). congruence.
    + rewrite E in Hm. destruct (Nat.eqb_spec v x); [congruence|]. exists mo. split; auto.
      destruct (inv_map _ I _ _ Hm) as [d0 (_ & H0 & _)].
      eapply map_holds_ext; eauto. rewrite E. destruct (Nat.eqb_spec v (m_vals mo)); auto. congruence.
  - intros x xs. rewrite (im_arr _ _ P), (owned_ext_iff h _ x L X), E.
    destruct (Nat.eqb_spec v x); [subst; split; intros [? _]; congruence|tauto].
  - intros x k. unfold put. rewrite E, (Nat.eqb_sym v x).
    destruct (Nat.eqb_spec x v); [subst; split; congruence|]. apply (im_val _ _ P).
  - intros x k. rewrite (im_var _ _ P), E. destruct (Nat.eqb_spec v x); [subst; split; congruence|tauto].
Qed.

Lemma impl_set_var h w p s0 s :
  Inv h -> impl h w -> nth_error h p = Some (CPtr s0) -> stype_of s = stype_of s0 ->
  impl (upd h p (CPtr s)) (World (w_next w) (w_map w) (w_arr w) (w_val w) (put (w_var w) p s)).
Proof.
  intros I P Ha T. pose proof (nth_error_lt _ _ _ Ha) as La.
  assert (X : hext h (upd h p (CPtr s))) by (eapply hext_upd; eauto; cbn; congruence).
  assert (L : length (upd h p (CPtr s)) = length h) by apply upd_length.
  assert (E : forall x, nth_error (upd h p (CPtr s)) x =
                        if Nat.eqb p x then Some (CPtr s) else nth_error h x)
    by (intros; now apply nth_error_upd).
  split; cbn.
  - rewrite L. apply (im_next _ _ P).
  - intros x d. rewrite (im_map _ _ P). split; intros (mo & Hm & H).
    + exists mo. rewrite E. destruct (Nat.eqb_spec p x); [congruence|]. split; auto.
      eapply map_holds_ext; eauto. rewrite E. destruct (Nat.eqb_spec p (m_vals mo)); auto.
      destruct H as (_ & H & _). congruence.
    + rewrite E in Hm. destruct (Nat.eqb_spec p x); [congruence|]. exists mo. split; auto.
      destruct (inv_map _ I _ _ Hm) as [d0 (_ & H0 & _)].
      eapply map_holds_ext; eauto. rewrite E. destruct (Nat.eqb_spec p (m_vals mo)); auto. congruence.
  - intros x xs. rewrite (im_arr _ _ P), (owned_ext_iff h _ x L X), E.
    destruct (Nat.eqb_spec p x); [subst; split; intros [? _]; congruence|tauto].
  - intros x k. rewrite (im_val _ _ P), E. destruct (Nat.eqb_spec p x); [subst; split; congruence|tauto].
  - intros x k. unfold put. rewrite E, (Nat.eqb_sym p x).
    destruct (Nat.eqb_spec x p); [subst; split; congruence|]. apply (im_var _ _ P).
Qed.

(** ** One call *)

Lemma valid_index_model {A} (l : list A) n :
  valid_index l n = negb ((n <? 0)%Z || (Z.of_nat (length l) - 1 <? n)%Z).
Proof.
  unfold valid_index. destruct (Z.ltb_spec n 0), (Z.leb_spec 0 n); cbn; auto; try lia;
  destruct (Z.ltb_spec n (Z.of_nat (length l))), (Z.ltb_spec (Z.of_nat (length l) - 1) n); auto; lia.
Qed.

Lemma run_call_ok h w c :
  Inv h -> impl h w -> ok_call w c ->
  exists h', run_call c h = Ok (fst (spec_call c w), h')
    /\ Inv h' /\ hext h h' /\ impl h' (snd (spec_call c w)).
Proof.
  intros I P K. destruct c; cbn in K.
  - (* ANewVar *)
    destruct (Inv_alloc h (CPtr s) I Logic.I) as [I' X']. eexists. split; [|split; [exact I'|split; [exact X'|]]].
    + cbn. unfold bind, alloc, ret. now rewrite (im_next _ _ P).
    + now apply impl_alloc_var.
  - (* AVarSet *)
    destruct K as (s0 & Hs & T). apply (im_var _ _ P) in Hs.
    destruct (Inv_upd_var h p s0 s I Hs (eq_sym T)) as [I' X'].
    eexists. split; [|split; [exact I'|split; [exact X'|]]].
    + unfold run_call, bind. rewrite wr_ok by (now apply nth_error_lt in Hs). reflexivity.
    + cbn. eapply impl_set_var; eauto.
  - (* AVarGet *)
    destruct K as [s Hs]. exists h. split; [|split; [exact I|split; [apply hext_refl|exact P]]].
    cbn. unfold bind, mlift. rewrite Hs. apply (im_var _ _ P) in Hs.
    now rewrite (proj2 (rd_ptr_iff _ _ _) Hs).
  - (* ANewValue *)
    destruct (Inv_alloc h (CVal i) I (ok_object_impl _ _ _ P K)) as [I' X'].
    eexists. split; [|split; [exact I'|split; [exact X'|]]].
    + cbn. unfold bind, new_value, alloc, ret. now rewrite (im_next _ _ P).
    + now apply impl_alloc_val.
  - destruct (Inv_alloc h (CArr []) I (Forall_nil _)) as [I' X'].
    eexists. split; [|split; [exact I'|split; [exact X'|]]].
    + cbn. unfold bind, new_array, alloc, ret. now rewrite (im_next _ _ P).
    + now apply impl_alloc_arr.
  - destruct (Inv_new_map h I) as [I' X'].
    eexists. split; [|split; [exact I'|split; [exact X'|]]].
    + unfold run_call, bind. rewrite new_map_eq. unfold ret. cbn. now rewrite (im_next _ _ P).
    + now apply impl_new_map.
  - (* AMapSetValue *)
    destruct K as [Km Ko]. pose proof (has_map _ _ _ P Km) as D.
    destruct (map_setInternal_ok h m _ k o I D (ok_value_handle_impl _ _ _ P Ko))
      as (h' & E & I' & X' & D' & L' & Fr).
    exists h'. split; [|split; [exact I'|split; [exact X'|]]].
    + unfold run_call, map_SetValue, bind. now rewrite E.
    + cbn. eapply (impl_set_map _ _ m (map_at w m)); [..|exact D'|exact L'|exact Fr]; eauto.
  - (* AMapSet *)
    destruct K as [Km Ko].
    destruct (Inv_alloc h (CVal i) I (ok_object_impl _ _ _ P Ko)) as [I1 X1].
    pose proof (impl_alloc_val h w i I P) as P1.
    pose proof (has_map _ _ _ P Km) as D.
    assert (D1 : map_dict (h ++ [CVal i]) m (map_at w m)) by (apply map_dict_alloc; auto; discriminate).
    assert (Ov : ok_oloc (h ++ [CVal i]) (Some (length h))).
    { cbn. exists i. apply nth_error_alloc_new. }
    destruct (map_setInternal_ok _ m _ k _ I1 D1 Ov) as (h' & E & I' & X' & D' & L' & Fr).
    exists h'. split; [|split; [exact I'|split; [eapply hext_trans; eauto|]]].
    + unfold run_call, map_SetObject, new_value, bind, alloc; cbv beta iota; now rewrite E.
    + cbn. rewrite (im_next _ _ P). eapply (impl_set_map _ _ m (map_at w m)); [..|exact D'|exact L'|exact Fr]; eauto.
  - (* AMapSetScalarValue *)
    destruct (Inv_alloc h (CPtr s) I Logic.I) as [I0 X0].
    pose proof (impl_alloc_var h w s I P) as P0.
    assert (Oi : ok_iface (h ++ [CPtr s]) (IPtr (stype_of s) (Some (length h)))).
    { cbn. exists s. split; auto. apply nth_error_alloc_new. }
    destruct (Inv_alloc _ (CVal (IPtr (stype_of s) (Some (length h)))) I0 Oi) as [I1 X1].
    pose proof (impl_alloc_val _ _ (IPtr (stype_of s) (Some (length h))) I0 P0) as P1.
    pose proof (has_map _ _ _ P K) as D.
    assert (D1 : map_dict ((h ++ [CPtr s]) ++ [CVal (IPtr (stype_of s) (Some (length h)))]) m (map_at w m)).
    { apply map_dict_alloc; auto; [discriminate|]. apply map_dict_alloc; auto. discriminate. }
    assert (Ov : ok_oloc ((h ++ [CPtr s]) ++ [CVal (IPtr (stype_of s) (Some (length h)))])
                   (Some (length (h ++ [CPtr s])))).
    { cbn. eexists. apply nth_error_alloc_new. }
    destruct (map_setInternal_ok _ m _ k _ I1 D1 Ov) as (h' & E & I' & X' & D' & L' & Fr).
    exists h'. split; [|split; [exact I'|split; [eapply hext_trans; eauto; eapply hext_trans; eauto|]]].
    + unfold run_call, map_SetScalarValue, map_SetObject, new_value, bind, alloc; cbv beta iota; now rewrite E.
    + cbn. assert (En : S (w_next w) = length (h ++ [CPtr s])).
      { rewrite (im_next _ _ P), app_length. cbn. lia. }
      rewrite En. rewrite <- (im_next _ _ P) in *. eapply (impl_set_map _ _ m (map_at w m)); [..|exact D'|exact L'|exact Fr]; eauto.
  - (* AMapRemoveKey *)
    pose proof (has_map _ _ _ P K) as D. pose proof (map_RemoveKey_ok h m _ k I D) as R. cbn.
    destruct (dict_has (map_at w m) k).
    + destruct R as (h' & E & I' & X' & D' & L' & Fr).
      exists h'. split; [|split; [exact I'|split; [exact X'|]]].
      * unfold bind. now rewrite E.
      * cbn. eapply (impl_set_map _ _ m (map_at w m)); [..|exact D'|exact L'|exact Fr]; eauto.
    + exists h. split; [|split; [exact I|split; [apply hext_refl|exact P]]].
      unfold bind. now rewrite R.
  - pose proof (has_map _ _ _ P K) as (mo & Hm & D).
    exists h. split; [|split; [exact I|split; [apply hext_refl|exact P]]].
    cbn. unfold bind, mlift, map_HasKey. rewrite (proj2 (rd_map_iff _ _ _) Hm). cbn.
    now rewrite (has_key_dict _ _ _ _ D).
  - pose proof (has_map _ _ _ P K) as (mo & Hm & D).
    exists h. split; [|split; [exact I|split; [apply hext_refl|exact P]]].
    cbn. unfold bind, mlift, map_GetValue. rewrite (proj2 (rd_map_iff _ _ _) Hm). cbn.
    destruct D as (_ & _ & _ & T). now rewrite T.
  - pose proof (has_map _ _ _ P K) as (mo & Hm & D).
    exists h. split; [|split; [exact I|split; [apply hext_refl|exact P]]].
    cbn. unfold bind, mlift, map_GetKeys. rewrite (proj2 (rd_map_iff _ _ _) Hm). cbn.
    destruct D as (Ek & _). now rewrite Ek.
  - pose proof (has_map _ _ _ P K) as (mo & Hm & D).
    exists h. split; [|split; [exact I|split; [apply hext_refl|exact P]]].
    cbn. unfold bind, mlift, map_Values, arr_GetValues. rewrite (proj2 (rd_map_iff _ _ _) Hm). cbn.
    destruct D as (_ & Ha & _). now rewrite (proj2 (rd_arr_iff _ _ _) Ha).
  - (* AArrAppendValue *)
    destruct K as [Ka Ko]. destruct (has_arr _ _ _ P Ka) as [Ha NO].
    destruct (arr_AppendValue_ok h a _ o I Ha NO (ok_value_handle_impl _ _ _ P Ko)) as (E & I' & X').
    eexists. split; [|split; [exact I'|split; [exact X'|]]].
    + unfold run_call, bind. now rewrite E.
    + cbn. eapply impl_set_arr; eauto.
  - destruct K as [Ka Ko]. destruct (has_arr _ _ _ P Ka) as [Ha NO].
    destruct (Inv_alloc h (CVal i) I (ok_object_impl _ _ _ P Ko)) as [I1 X1].
    pose proof (impl_alloc_val h w i I P) as P1.
    assert (Ha1 : nth_error (h ++ [CVal i]) a = Some (CArr (arr_at w a))) by (now apply nth_error_alloc_old).
    assert (NO1 : ~ owned (h ++ [CVal i]) a) by (rewrite owned_alloc by discriminate; auto).
    assert (Ov : ok_oloc (h ++ [CVal i]) (Some (length h))).
    { cbn. exists i. apply nth_error_alloc_new. }
    destruct (arr_AppendValue_ok _ a _ _ I1 Ha1 NO1 Ov) as (E & I' & X').
    eexists. split; [|split; [exact I'|split; [eapply hext_trans; eauto|]]].
    + unfold run_call, arr_AppendObject, new_value, bind, alloc; cbv beta iota; now rewrite E.
    + cbn. rewrite (im_next _ _ P). eapply impl_set_arr; eauto.
  - (* set at index *)
    destruct K as [Ka Ko]. destruct (has_arr _ _ _ P Ka) as [Ha NO].
    pose proof (nth_error_lt _ _ _ Ha) as La.
    unfold run_call, spec_call. rewrite valid_index_model. unfold bind, arr_SetValueAtIndex.
    rewrite (proj2 (rd_arr_iff _ _ _) Ha).
    destruct (n <? 0)%Z; cbn [orb negb].
    { exists h. split; [reflexivity|split; [exact I|split; [apply hext_refl|exact P]]]. }
    destruct (Z.of_nat (length (arr_at w a)) - 1 <? n)%Z; cbn [orb negb].
    { exists h. split; [reflexivity|split; [exact I|split; [apply hext_refl|exact P]]]. }
    unfold bind. rewrite (upd_list_set (arr_at w a)), wr_ok by auto.
    assert (F : Forall (ok_oloc h) (list_set (arr_at w a) (Z.to_nat n) o)).
    { apply Forall_forall. intros x Hx. rewrite <- upd_list_set in Hx.
      apply In_upd in Hx as [->|Hx]; [eapply ok_value_handle_impl; eauto|].
      pose proof (inv_arr _ I _ _ Ha) as Fo. rewrite Forall_forall in Fo. auto. }
    destruct (Inv_upd_arr h a _ _ I Ha NO F) as [I' X'].
    eexists. split; [reflexivity|split; [exact I'|split; [exact X'|]]].
    eapply impl_set_arr; eauto.
  - (* remove at index *)
    destruct (has_arr _ _ _ P K) as [Ha NO].
    pose proof (nth_error_lt _ _ _ Ha) as La.
    unfold run_call, spec_call. rewrite valid_index_model. unfold bind, arr_RemoveValueAtIndex.
    rewrite (proj2 (rd_arr_iff _ _ _) Ha).
    destruct (n <? 0)%Z; cbn [orb negb].
    { exists h. split; [reflexivity|split; [exact I|split; [apply hext_refl|exact P]]]. }
    destruct (Z.of_nat (length (arr_at w a)) - 1 <? n)%Z; cbn [orb negb].
    { exists h. split; [reflexivity|split; [exact I|split; [apply hext_refl|exact P]]]. }
    unfold bind. rewrite wr_ok by auto. rewrite remove_nth_list_remove.
    assert (F : Forall (ok_oloc h) (list_remove (arr_at w a) (Z.to_nat n))).
    { apply Forall_forall. intros x Hx. rewrite <- remove_nth_list_remove in Hx.
      apply In_remove_nth in Hx.
      pose proof (inv_arr _ I _ _ Ha) as Fo. rewrite Forall_forall in Fo. auto. }
    destruct (Inv_upd_arr h a _ _ I Ha NO F) as [I' X'].
    eexists. split; [reflexivity|split; [exact I'|split; [exact X'|]]].
    eapply impl_set_arr; eauto.
  - destruct (has_arr _ _ _ P K) as [Ha NO].
    exists h. split; [|split; [exact I|split; [apply hext_refl|exact P]]].
    cbn. unfold bind, mlift, arr_Len. now rewrite (proj2 (rd_arr_iff _ _ _) Ha).
  - destruct (has_arr _ _ _ P K) as [Ha NO].
    exists h. split; [|split; [exact I|split; [apply hext_refl|exact P]]].
    cbn. unfold bind, mlift, arr_GetValues. now rewrite (proj2 (rd_arr_iff _ _ _) Ha).
  - destruct K as [Kv Ki]. pose proof (has_val _ _ _ P Kv) as Hv.
    destruct (value_SetObject_ok h v i _ I Hv (ok_object_impl _ _ _ P Ki)) as (E & I' & X').
    eexists. split; [|split; [exact I'|split; [exact X'|]]].
    + unfold run_call, bind. now rewrite E.
    + cbn. eapply impl_set_val; eauto.
  - pose proof (has_val _ _ _ P K) as Hv.
    exists h. split; [|split; [exact I|split; [apply hext_refl|exact P]]].
    cbn. unfold bind, mlift, value_GetObject. now rewrite (proj2 (rd_val_iff _ _ _) Hv).
Qed.

Lemma run_calls_ok cs : forall h w,
  Inv h -> impl h w -> ok_calls cs w ->
  exists h', run_calls cs h = Ok (fst (spec_calls cs w), h')
    /\ Inv h' /\ hext h h' /\ impl h' (snd (spec_calls cs w)).
Proof.
  induction cs as [|c cs IH]; intros h w I P K; cbn in *.
  - exists h. split; [reflexivity|split; [exact I|split; [apply hext_refl|exact P]]].
  - destruct K as [K1 K2]. destruct (run_call_ok _ _ _ I P K1) as (h1 & E1 & I1 & X1 & P1).
    destruct (spec_call c w) as [o w1]. cbn in *.
    destruct (IH _ _ I1 P1 K2) as (h2 & E2 & I2 & X2 & P2).
    destruct (spec_calls cs w1) as [os w2]. cbn in *.
    exists h2. split; [|split; [exact I2|split; [eapply hext_trans; eauto|exact P2]]].
    unfold bind. rewrite E1, E2. reflexivity.
Qed.
