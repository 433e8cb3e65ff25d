(** * The heap invariant and its preservation by the primitive operations *)
From Coq Require Import Ascii String List NArith ZArith Bool Lia.
From Verif Require Import GoStr StrLemmas GoNum GoFloat Heap Common ValueModel ArrayModel MapModel
  SpecDict DictLemmas.
Import ListNotations.

Lemma map_Plain_inj l l' : map Plain l = map Plain l' -> l = l'.
Proof.
  revert l'. induction l as [|s l IH]; intros [|s' l'] H; try discriminate; auto. injection H as -> H. now rewrite (IH l' H).
Qed.

(** ** Heap cells *)

Lemma nth_error_alloc (h : heap) c l :
  nth_error (h ++ [c]) l =
  if Nat.ltb l (length h) then nth_error h l else if Nat.eqb l (length h) then Some c else None.
Proof.
  destruct (Nat.ltb_spec l (length h)).
  - now rewrite nth_error_app1.
  - destruct (Nat.eqb_spec l (length h)).
    + subst. rewrite nth_error_app2 by lia. now rewrite Nat.sub_diag.
    + apply nth_error_None. rewrite app_length. cbn. lia.
Qed.

Lemma nth_error_alloc_old (h : heap) c l c' :
  nth_error h l = Some c' -> nth_error (h ++ [c]) l = Some c'.
Proof.
  intros H. rewrite nth_error_app1; auto. apply nth_error_Some. congruence.
Qed.

Lemma nth_error_alloc_new (h : heap) c : nth_error (h ++ [c]) (length h) = Some c.
Proof. rewrite nth_error_app2 by lia. now rewrite Nat.sub_diag. Qed.

Lemma nth_error_lt {A} (l : list A) n x : nth_error l n = Some x -> (n < length l)%nat.
Proof. intros H. apply nth_error_Some. congruence. Qed.

Lemma wr_ok l c h : (l < length h)%nat -> wr l c h = Ok (tt, upd h l c).
Proof. intros H. unfold wr. apply Nat.ltb_lt in H. now rewrite H. Qed.

Lemma rd_val_iff h v i : rd_val h v = Ok i <-> nth_error h v = Some (CVal i).
Proof.
  unfold rd_val. destruct (nth_error h v) as [[]|]; split; intros H; inversion H; subst; auto.
Qed.
Lemma rd_map_iff h v i : rd_map h v = Ok i <-> nth_error h v = Some (CMap i).
Proof.
  unfold rd_map. destruct (nth_error h v) as [[]|]; split; intros H; inversion H; subst; auto.
Qed.
Lemma rd_arr_iff h v i : rd_arr h v = Ok i <-> nth_error h v = Some (CArr i).
Proof.
  unfold rd_arr. destruct (nth_error h v) as [[]|]; split; intros H; inversion H; subst; auto.
Qed.
Lemma rd_ptr_iff h v i : rd_ptr h v = Ok i <-> nth_error h v = Some (CPtr i).
Proof.
  unfold rd_ptr. destruct (nth_error h v) as [[]|]; split; intros H; inversion H; subst; auto.
Qed.

(** ** Kinds and heap extension *)

Inductive ck := KdPtr (t : stype) | KdVal | KdMap (vals : loc) | KdArr.
Definition kind_of (c : cell) : ck :=
  match c with
  | CPtr s => KdPtr (stype_of s)
  | CVal _ => KdVal
  | CMap m => KdMap (m_vals m)
  | CArr _ => KdArr
  end.

(** Cells keep their kind, and a new map owns a new array. *)
Definition hext (h h' : heap) : Prop :=
  (forall l c, nth_error h l = Some c ->
     exists c', nth_error h' l = Some c' /\ kind_of c' = kind_of c)
  /\ (forall m mo, nth_error h' m = Some (CMap mo) -> (length h <= m)%nat ->
        (length h <= m_vals mo)%nat).

Lemma hext_refl h : hext h h.
Proof.
  split; eauto. intros m mo H L. apply nth_error_lt in H. lia.
Qed.

Lemma hext_len h h' : hext h h' -> (length h <= length h')%nat.
Proof.
  intros [H _]. destruct (Nat.le_gt_cases (length h) (length h')); auto.
  destruct (nth_error h (length h')) as [c|] eqn:E.
  - apply H in E as (c' & E & _). apply nth_error_lt in E. lia.
  - apply nth_error_None in E. lia.
Qed.

Lemma hext_trans h1 h2 h3 : hext h1 h2 -> hext h2 h3 -> hext h1 h3.
Proof.
  intros H12 H23. pose proof (hext_len _ _ H12). destruct H12 as [A B], H23 as [C D]. split.
  - intros l c Hl. apply A in Hl as (c2 & Hl & K). apply C in Hl as (c3 & Hl & K').
    exists c3. split; auto. congruence.
  - intros m mo Hm L. destruct (Nat.le_gt_cases (length h2) m) as [G|G].
    + specialize (D m mo Hm G). lia.
    + destruct (nth_error h2 m) as [c|] eqn:E; [|apply nth_error_None in E; lia].
      destruct (C _ _ E) as (c' & E' & K). rewrite Hm in E'. inversion E'; subst. cbn in K.
      destruct c; cbn in K; try discriminate. inversion K.
      replace (m_vals mo) with (m_vals m0) by congruence. eapply B; eauto.
Qed.

Definition owned (h : heap) (a : loc) : Prop :=
  exists m mo, nth_error h m = Some (CMap mo) /\ m_vals mo = a.

Definition ok_oloc (h : heap) (o : option loc) : Prop :=
  match o with None => True | Some v => exists i, nth_error h v = Some (CVal i) end.

Definition ok_pub_arr (h : heap) (a : loc) : Prop :=
  (exists l, nth_error h a = Some (CArr l)) /\ ~ owned h a.

(** The handles in an interface value are valid; an array handle is never the
    private array of a map. *)
Definition ok_iface (h : heap) (i : iface) : Prop :=
  match i with
  | IPtr t (Some p) => exists s, nth_error h p = Some (CPtr s) /\ stype_of s = t
  | IMap m | IPMap (Some m) => exists mo, nth_error h m = Some (CMap mo)
  | IArr a | IPArr (Some a) => ok_pub_arr h a
  | IVal v | IPVal (Some v) => exists j, nth_error h v = Some (CVal j)
  | _ => True
  end.

(** A map object holds the dictionary [d]. *)
Definition map_holds (h : heap) (mo : mobj) (d : dict (option loc)) : Prop :=
  m_keys mo = dict_keys d
  /\ nth_error h (m_vals mo) = Some (CArr (dict_values d))
  /\ dict_ok d
  /\ forall k, tbl_get (m_tbl mo) k = dict_get d k.

Record Inv (h : heap) : Prop := {
  inv_val : forall l i, nth_error h l = Some (CVal i) -> ok_iface h i;
  inv_map : forall l mo, nth_error h l = Some (CMap mo) -> exists d, map_holds h mo d;
  inv_arr : forall l xs, nth_error h l = Some (CArr xs) -> Forall (ok_oloc h) xs;
  inv_own : forall m1 m2 mo1 mo2, nth_error h m1 = Some (CMap mo1) ->
              nth_error h m2 = Some (CMap mo2) -> m_vals mo1 = m_vals mo2 -> m1 = m2 }.

Lemma Inv_nil : Inv [].
Proof. split; intros; destruct l || destruct m1; discriminate. Qed.

(** Monotonicity of the components. *)
Lemma ok_oloc_ext h h' o : hext h h' -> ok_oloc h o -> ok_oloc h' o.
Proof.
  intros [H _] K. destruct o as [v|]; cbn in *; auto. destruct K as [i Hi].
  apply H in Hi as (c & Hc & E). destruct c; try discriminate. eauto.
Qed.

Lemma owned_ext h h' a : hext h h' -> (a < length h)%nat -> owned h' a -> owned h a.
Proof.
  intros [H B] L (m & mo & Hm & E). destruct (Nat.le_gt_cases (length h) m) as [G|G].
  - specialize (B _ _ Hm G). lia.
  - destruct (nth_error h m) as [c|] eqn:Ec; [|apply nth_error_None in Ec; lia].
    destruct (H _ _ Ec) as (c' & Ec' & K). rewrite Hm in Ec'. inversion Ec'; subst c'.
    destruct c; try discriminate. cbn in K. inversion K. exists m, m0. split; auto. congruence.
Qed.

Lemma ok_pub_arr_ext h h' a : hext h h' -> ok_pub_arr h a -> ok_pub_arr h' a.
Proof.
  intros Hx [(l & Hl) N]. split.
  - destruct Hx as [H _]. apply H in Hl as (c & Hc & E). destruct c; try discriminate. eauto.
  - intros O. apply N. eapply owned_ext; eauto. now apply nth_error_lt in Hl.
Qed.

Lemma ok_iface_ext h h' i : hext h h' -> ok_iface h i -> ok_iface h' i.
Proof.
  intros Hx K. destruct i as [| |t [p|]|m|[m|]|a|[a|]|v|[v|]| | |[?|]|[?|]| |[?|]| | |[?|]|[?|]|? [?|]]; cbn in *; auto;
    try (eapply ok_pub_arr_ext; eauto; fail);
    destruct Hx as [H _];
    try (destruct K as [j Hj]; apply H in Hj as (c & Hc & E); destruct c; try discriminate; eauto; fail).
  destruct K as (s & Hs & T). apply H in Hs as (c & Hc & E). destruct c; try discriminate.
  cbn in E. inversion E. exists s0. split; auto. congruence.
Qed.

(** ** Allocation *)

Lemma hext_alloc h c :
  (forall mo, c = CMap mo -> (length h <= m_vals mo)%nat) -> hext h (h ++ [c]).
Proof.
  intros Hc. split.
  - intros l c' Hl. exists c'. split; auto. now apply nth_error_alloc_old.
  - intros m mo Hm L. rewrite nth_error_alloc in Hm.
    destruct (Nat.ltb_spec m (length h)); [lia|].
    destruct (Nat.eqb_spec m (length h)); inversion Hm. auto.
Qed.

Lemma map_holds_ext h h' mo d :
  map_holds h mo d ->
  nth_error h' (m_vals mo) = nth_error h (m_vals mo) -> map_holds h' mo d.
Proof. intros (A & B & C & D) E. repeat split; auto. congruence. Qed.

Lemma Inv_alloc h c :
  Inv h ->
  match c with
  | CPtr _ => True
  | CVal i => ok_iface h i
  | CArr l => Forall (ok_oloc h) l
  | CMap _ => False
  end -> Inv (h ++ [c]) /\ hext h (h ++ [c]).
Proof.
  intros I Hc.
  assert (X : hext h (h ++ [c])).
  { apply hext_alloc. intros mo ->. tauto. }
  split; auto. split.
  - intros l i Hl. rewrite nth_error_alloc in Hl.
    destruct (Nat.ltb_spec l (length h)).
    + eapply ok_iface_ext; eauto using inv_val.
    + destruct (Nat.eqb l (length h)); inversion Hl; subst. eapply ok_iface_ext; eauto.
  - intros l mo Hl. rewrite nth_error_alloc in Hl.
    destruct (Nat.ltb_spec l (length h)).
    + destruct (inv_map _ I _ _ Hl) as [d Hd]. exists d. eapply map_holds_ext; eauto.
      rewrite nth_error_app1; auto. destruct Hd as (_ & Hd & _). now apply nth_error_lt in Hd.
    + destruct (Nat.eqb l (length h)); inversion Hl; subst. tauto.
  - intros l xs Hl. rewrite nth_error_alloc in Hl.
    assert (F : Forall (ok_oloc h) xs).
    { destruct (Nat.ltb_spec l (length h)).
      + eapply inv_arr; eauto.
      + destruct (Nat.eqb l (length h)); inversion Hl; subst. auto. }
    eapply Forall_impl; [|exact F]. intros o. now apply ok_oloc_ext.
  - intros m1 m2 mo1 mo2 H1 H2 E. rewrite nth_error_alloc in H1, H2.
    destruct (Nat.ltb_spec m1 (length h)); [|destruct (Nat.eqb m1 (length h)); inversion H1; subst; tauto].
    destruct (Nat.ltb_spec m2 (length h)); [|destruct (Nat.eqb m2 (length h)); inversion H2; subst; tauto].
    eapply inv_own; eauto.
Qed.

Lemma alloc_eq c h : alloc c h = Ok (length h, h ++ [c]).
Proof. reflexivity. Qed.

(** NewMap. *)
Lemma new_map_eq h :
  new_map h = Ok (S (length h), (h ++ [CArr []]) ++ [CMap (MObj [] [] (length h))]).
Proof.
  unfold new_map, new_array, bind, alloc. now rewrite app_length, Nat.add_1_r.
Qed.

Lemma Inv_new_map h :
  Inv h ->
  let h' := (h ++ [CArr []]) ++ [CMap (MObj [] [] (length h))] in
  Inv h' /\ hext h h'.
Proof.
  intros I h'. destruct (Inv_alloc h (CArr []) I (Forall_nil _)) as [I1 X1].
  set (h1 := h ++ [CArr []]) in *.
  assert (L1 : length h1 = S (length h)) by (unfold h1; rewrite app_length; cbn; lia).
  assert (X2 : hext h h').
  { split.
    - intros l c Hl. exists c. split; auto. unfold h'. now do 2 apply nth_error_alloc_old.
    - intros m mo Hm L. unfold h' in Hm. rewrite nth_error_alloc, L1 in Hm.
      destruct (Nat.ltb_spec m (S (length h))).
      + unfold h1 in Hm. rewrite nth_error_alloc in Hm.
        destruct (Nat.ltb_spec m (length h)); [lia|].
        destruct (Nat.eqb m (length h)); inversion Hm.
      + destruct (Nat.eqb m (S (length h))); inversion Hm. cbn. lia. }
  assert (NO : forall m mo, nth_error h1 m = Some (CMap mo) -> (m_vals mo < length h)%nat).
  { intros m mo Hm. unfold h1 in Hm. rewrite nth_error_alloc in Hm.
    destruct (Nat.ltb_spec m (length h)).
    - destruct (inv_map _ I _ _ Hm) as [d (_ & Hd & _)]. now apply nth_error_lt in Hd.
    - destruct (Nat.eqb m (length h)); inversion Hm. }
  split; auto. split.
  - intros l i Hl. unfold h' in Hl. rewrite nth_error_alloc in Hl.
    destruct (Nat.ltb_spec l (length h1)).
    + assert (Hl' : nth_error h l = Some (CVal i)).
      { unfold h1 in Hl. rewrite nth_error_alloc in Hl.
        destruct (Nat.ltb l (length h)); auto. destruct (Nat.eqb l (length h)); inversion Hl. }
      eapply ok_iface_ext; eauto using inv_val.
    + destruct (Nat.eqb l (length h1)); inversion Hl.
  - intros l mo Hl. unfold h' in Hl. rewrite nth_error_alloc in Hl.
    destruct (Nat.ltb_spec l (length h1)).
    + destruct (inv_map _ I1 _ _ Hl) as [d Hd]. exists d. eapply map_holds_ext; eauto.
      unfold h'. rewrite nth_error_app1; auto. apply NO in Hl. lia.
    + destruct (Nat.eqb l (length h1)); inversion Hl; subst. exists [].
      repeat split; cbn; auto; try constructor.
      unfold h'. apply nth_error_alloc_old. apply nth_error_alloc_new.
  - intros l xs Hl. unfold h' in Hl. rewrite nth_error_alloc in Hl.
    destruct (Nat.ltb_spec l (length h1)).
    + unfold h1 in Hl. rewrite nth_error_alloc in Hl.
      destruct (Nat.ltb l (length h)).
      * eapply Forall_impl; [|exact (inv_arr _ I _ _ Hl)]. intros o. now apply ok_oloc_ext.
      * destruct (Nat.eqb l (length h)); inversion Hl. constructor.
    + destruct (Nat.eqb l (length h1)); inversion Hl.
  - intros m1 m2 mo1 mo2 H1 H2 E. unfold h' in H1, H2. rewrite nth_error_alloc in H1, H2.
    destruct (Nat.ltb_spec m1 (length h1)) as [G1|G1];
      [|destruct (Nat.eqb_spec m1 (length h1)); inversion H1; subst];
      (destruct (Nat.ltb_spec m2 (length h1)) as [G2|G2];
       [|destruct (Nat.eqb_spec m2 (length h1)); inversion H2; subst]); auto.
    + eapply inv_own; eauto.
    + cbn in E. apply NO in H1. lia.
    + cbn in E. apply NO in H2. lia.
Qed.

(** ** Updates that keep the kind *)

Lemma hext_upd h l c c' :
  nth_error h l = Some c -> kind_of c' = kind_of c -> hext h (upd h l c').
Proof.
  intros Hl K. pose proof (nth_error_lt _ _ _ Hl) as L. split.
  - intros l2 c2 H2. rewrite nth_error_upd by auto.
    destruct (Nat.eqb_spec l l2); subst; eauto.
    exists c'. split; congruence.
  - intros m mo Hm G. apply nth_error_lt in Hm. rewrite upd_length in Hm. lia.
Qed.

(** Value setters. *)
Lemma value_SetObject_ok h v i j :
  Inv h -> nth_error h v = Some (CVal j) -> ok_iface h i ->
  value_SetObject v i h = Ok (tt, upd h v (CVal i))
  /\ Inv (upd h v (CVal i)) /\ hext h (upd h v (CVal i)).
Proof.
  intros I Hv Hi. pose proof (nth_error_lt _ _ _ Hv) as L.
  assert (X : hext h (upd h v (CVal i))) by (eapply hext_upd; eauto).
  split; [|split; auto].
  - unfold value_SetObject. rewrite (proj2 (rd_val_iff _ _ _) Hv). now apply wr_ok.
  - assert (N : forall l c, nth_error (upd h v (CVal i)) l = Some c ->
        (l = v /\ c = CVal i) \/ (l <> v /\ nth_error h l = Some c)).
    { intros l c H. rewrite nth_error_upd in H by auto.
      destruct (Nat.eqb_spec v l); [left|right]; split; congruence. }
    split.
    + intros l k H. apply N in H as [[-> H]|[_ H]].
      * inversion H; subst. eapply ok_iface_ext; eauto.
      * eapply ok_iface_ext; eauto using inv_val.
    + intros l mo H. apply N in H as [[-> H]|[_ H]]; [discriminate|].
      destruct (inv_map _ I _ _ H) as [d Hd]. exists d. eapply map_holds_ext; eauto.
      rewrite nth_error_upd by auto. destruct (Nat.eqb_spec v (m_vals mo)); auto.
      destruct Hd as (_ & Hd & _). congruence.
    + intros l xs H. apply N in H as [[-> H]|[_ H]]; [discriminate|].
      eapply Forall_impl; [|eapply inv_arr; eauto]. intros o. now apply ok_oloc_ext.
    + intros m1 m2 mo1 mo2 H1 H2. apply N in H1 as [[-> H1]|[_ H1]]; [discriminate|].
      apply N in H2 as [[-> H2]|[_ H2]]; [discriminate|]. eapply inv_own; eauto.
Qed.

(** Writing a variable. *)
Lemma Inv_upd_var h p s0 s :
  Inv h -> nth_error h p = Some (CPtr s0) -> stype_of s = stype_of s0 ->
  Inv (upd h p (CPtr s)) /\ hext h (upd h p (CPtr s)).
Proof.
  intros I Hp T. pose proof (nth_error_lt _ _ _ Hp) as L.
  assert (X : hext h (upd h p (CPtr s))) by (eapply hext_upd; eauto; cbn; congruence).
  split; auto.
  assert (N : forall l c, nth_error (upd h p (CPtr s)) l = Some c ->
      (l = p /\ c = CPtr s) \/ (l <> p /\ nth_error h l = Some c)).
  { intros l c H. rewrite nth_error_upd in H by auto.
    destruct (Nat.eqb_spec p l); [left|right]; split; congruence. }
  split.
  - intros l k H. apply N in H as [[-> H]|[_ H]]; [discriminate|].
    eapply ok_iface_ext; eauto using inv_val.
  - intros l mo H. apply N in H as [[-> H]|[_ H]]; [discriminate|].
    destruct (inv_map _ I _ _ H) as [d Hd]. exists d. eapply map_holds_ext; eauto.
    rewrite nth_error_upd by auto. destruct (Nat.eqb_spec p (m_vals mo)); auto.
    destruct Hd as (_ & Hd & _). congruence.
  - intros l xs H. apply N in H as [[-> H]|[_ H]]; [discriminate|].
    eapply Forall_impl; [|eapply inv_arr; eauto]. intros o. now apply ok_oloc_ext.
  - intros m1 m2 mo1 mo2 H1 H2. apply N in H1 as [[-> H1]|[_ H1]]; [discriminate|].
    apply N in H2 as [[-> H2]|[_ H2]]; [discriminate|]. eapply inv_own; eauto.
Qed.

(** Rewriting the content of an array that no map owns. *)
Lemma Inv_upd_arr h a l l' :
  Inv h -> nth_error h a = Some (CArr l) -> ~ owned h a -> Forall (ok_oloc h) l' ->
  Inv (upd h a (CArr l')) /\ hext h (upd h a (CArr l')).
Proof.
  intros I Ha NO F. pose proof (nth_error_lt _ _ _ Ha) as L.
  assert (X : hext h (upd h a (CArr l'))) by (eapply hext_upd; eauto).
  split; auto.
  assert (N : forall x c, nth_error (upd h a (CArr l')) x = Some c ->
      (x = a /\ c = CArr l') \/ (x <> a /\ nth_error h x = Some c)).
  { intros x c H. rewrite nth_error_upd in H by auto.
    destruct (Nat.eqb_spec a x); [left|right]; split; congruence. }
  split.
  - intros x k H. apply N in H as [[-> H]|[_ H]]; [discriminate|].
    eapply ok_iface_ext; eauto using inv_val.
  - intros x mo H. apply N in H as [[-> H]|[_ H]]; [discriminate|].
    destruct (inv_map _ I _ _ H) as [d Hd]. exists d. eapply map_holds_ext; eauto.
    rewrite nth_error_upd by auto. destruct (Nat.eqb_spec a (m_vals mo)); auto.
    exfalso. apply NO. exists x, mo. auto.
  - intros x xs H. apply N in H as [[-> H]|[_ H]].
    + inversion H; subst. eapply Forall_impl; [|exact F]. intros o. now apply ok_oloc_ext.
    + eapply Forall_impl; [|eapply inv_arr; eauto]. intros o. now apply ok_oloc_ext.
  - intros m1 m2 mo1 mo2 H1 H2. apply N in H1 as [[-> H1]|[_ H1]]; [discriminate|].
    apply N in H2 as [[-> H2]|[_ H2]]; [discriminate|]. eapply inv_own; eauto.
Qed.

Lemma arr_AppendValue_eq h a l o :
  nth_error h a = Some (CArr l) ->
  arr_AppendValue a o h = Ok (tt, upd h a (CArr (l ++ [o]))).
Proof.
  intros Ha. unfold arr_AppendValue. rewrite (proj2 (rd_arr_iff _ _ _) Ha).
  apply wr_ok. now apply nth_error_lt in Ha.
Qed.

Lemma arr_AppendValue_ok h a l o :
  Inv h -> nth_error h a = Some (CArr l) -> ~ owned h a -> ok_oloc h o ->
  arr_AppendValue a o h = Ok (tt, upd h a (CArr (l ++ [o])))
  /\ Inv (upd h a (CArr (l ++ [o]))) /\ hext h (upd h a (CArr (l ++ [o]))).
Proof.
  intros I Ha NO Ho. split; [now apply arr_AppendValue_eq|].
  eapply Inv_upd_arr; eauto. apply Forall_app. split; [eapply inv_arr; eauto | repeat constructor; auto].
Qed.

(** Rewriting a map and its private array together. *)
Lemma Inv_upd_map h m mo d' tbl' :
  Inv h -> nth_error h m = Some (CMap mo) ->
  dict_ok d' -> Forall (ok_oloc h) (dict_values d') ->
  (forall k, tbl_get tbl' k = dict_get d' k) ->
  let h' := upd (upd h (m_vals mo) (CArr (dict_values d'))) m
                (CMap (MObj tbl' (dict_keys d') (m_vals mo))) in
  Inv h' /\ hext h h' /\ map_holds h' (MObj tbl' (dict_keys d') (m_vals mo)) d'
  /\ nth_error h' m = Some (CMap (MObj tbl' (dict_keys d') (m_vals mo))).
Proof.
  intros I Hm Dk F T h'.
  destruct (inv_map _ I _ _ Hm) as [d (_ & Ha & _)].
  pose proof (nth_error_lt _ _ _ Hm) as Lm. pose proof (nth_error_lt _ _ _ Ha) as La.
  assert (NE : m_vals mo <> m) by congruence.
  assert (X1 : hext h (upd h (m_vals mo) (CArr (dict_values d')))) by (eapply hext_upd; eauto).
  assert (Hm1 : nth_error (upd h (m_vals mo) (CArr (dict_values d'))) m = Some (CMap mo)).
  { rewrite nth_error_upd by auto. destruct (Nat.eqb_spec (m_vals mo) m); congruence. }
  assert (X : hext h h').
  { eapply hext_trans; [exact X1|]. eapply hext_upd; eauto. }
  assert (N : forall x c, nth_error h' x = Some c ->
      (x = m /\ c = CMap (MObj tbl' (dict_keys d') (m_vals mo)))
      \/ (x = m_vals mo /\ c = CArr (dict_values d'))
      \/ (x <> m /\ x <> m_vals mo /\ nth_error h x = Some c)).
  { intros x c H. unfold h' in H. rewrite nth_error_upd in H by (now rewrite upd_length).
    destruct (Nat.eqb_spec m x); [left; split; congruence|].
    rewrite nth_error_upd in H by auto.
    destruct (Nat.eqb_spec (m_vals mo) x); [right; left; split; congruence|].
    right; right; auto. }
  assert (Ha' : nth_error h' (m_vals mo) = Some (CArr (dict_values d'))).
  { unfold h'. rewrite nth_error_upd by (now rewrite upd_length).
    destruct (Nat.eqb_spec m (m_vals mo)); [congruence|].
    rewrite nth_error_upd by auto. now rewrite Nat.eqb_refl. }
  assert (Hm' : nth_error h' m = Some (CMap (MObj tbl' (dict_keys d') (m_vals mo)))).
  { unfold h'. rewrite nth_error_upd by (now rewrite upd_length). now rewrite Nat.eqb_refl. }
  assert (HH : map_holds h' (MObj tbl' (dict_keys d') (m_vals mo)) d') by (repeat split; auto).
  split; [|auto]. split.
  - intros x k H. apply N in H as [[-> H]|[[-> H]|(_ & _ & H)]]; try discriminate.
    eapply ok_iface_ext; eauto using inv_val.
  - intros x mo' H. apply N in H as [[-> H]|[[-> H]|(Nx & _ & H)]]; try discriminate.
    + inversion H; subst. eauto.
    + destruct (inv_map _ I _ _ H) as [d2 Hd2]. exists d2. eapply map_holds_ext; eauto.
      unfold h'. rewrite nth_error_upd by (now rewrite upd_length).
      destruct (Nat.eqb_spec m (m_vals mo')) as [E|E].
      { subst. destruct Hd2 as (_ & Hd2 & _). congruence. }
      rewrite nth_error_upd by auto. destruct (Nat.eqb_spec (m_vals mo) (m_vals mo')) as [E2|]; auto.
      exfalso. apply Nx. eapply inv_own; eauto.
  - intros x xs H. apply N in H as [[-> H]|[[-> H]|(_ & _ & H)]]; try discriminate.
    + inversion H; subst. eapply Forall_impl; [|exact F]. intros o. now apply ok_oloc_ext.
    + eapply Forall_impl; [|eapply inv_arr; eauto]. intros o. now apply ok_oloc_ext.
  - intros m1 m2 mo1 mo2 H1 H2 E.
    apply N in H1 as [[-> H1]|[[-> H1]|(N1 & _ & H1)]]; try discriminate;
      apply N in H2 as [[-> H2]|[[-> H2]|(N2 & _ & H2)]]; try discriminate; auto.
    + inversion H1; subst. cbn in E. eapply inv_own; eauto.
    + inversion H2; subst. cbn in E. eapply inv_own; eauto.
    + eapply inv_own; eauto.
Qed.

(** What a map denotes. *)
Definition map_dict (h : heap) (m : loc) (d : dict (option loc)) : Prop :=
  exists mo, nth_error h m = Some (CMap mo) /\ map_holds h mo d.

Lemma map_dict_ex h m mo : Inv h -> nth_error h m = Some (CMap mo) -> exists d, map_dict h m d.
Proof. intros I H. destruct (inv_map _ I _ _ H) as [d Hd]. exists d, mo. auto. Qed.

Lemma dict_ext {V} (d d' : dict V) :
  dict_keys d = dict_keys d' -> dict_values d = dict_values d' -> d = d'.
Proof.
  revert d'; induction d as [|[k v] d IH]; intros [|[k' v'] d']; cbn; intros H1 H2; try discriminate; auto.
  inversion H1; inversion H2; subst. f_equal. auto.
Qed.

Lemma map_dict_fun h m d d' : map_dict h m d -> map_dict h m d' -> d = d'.
Proof.
  intros (mo & Hm & A & B & _) (mo' & Hm' & A' & B' & _).
  rewrite Hm in Hm'. inversion Hm'; subst. apply dict_ext; congruence.
Qed.

Lemma map_dict_ok h m d : map_dict h m d -> dict_ok d.
Proof. intros (mo & _ & _ & _ & H & _). auto. Qed.

Lemma has_key_dict h mo d k : map_holds h mo d -> has_key mo k = dict_has d k.
Proof. intros (_ & _ & _ & T). unfold has_key, dict_has. now rewrite T. Qed.

Lemma find_index_None k l : find_index k l = None -> ~ In k l.
Proof.
  induction l as [|x l IH]; cbn; auto. destruct (str_eqb_spec x k); [discriminate|].
  destruct (find_index k l); [discriminate|]. intros _ [H|H]; auto. now apply IH.
Qed.

Lemma upd_upd_id {A} (l : list A) n x : nth_error l n = Some x -> upd l n x = l.
Proof.
  revert n; induction l as [|y l IH]; intros [|n]; cbn; intros H; try discriminate.
  - congruence.
  - now rewrite IH.
Qed.

(** Every setter of a map: the state changes as [dict_set]. *)
Lemma map_setInternal_ok h m d k o :
  Inv h -> map_dict h m d -> ok_oloc h o ->
  exists h', map_setInternal m k o h = Ok (tt, h')
    /\ Inv h' /\ hext h h' /\ map_dict h' m (dict_set d k o)
    /\ length h' = length h
    /\ (forall l, l <> m -> (forall mo, nth_error h m = Some (CMap mo) -> l <> m_vals mo) ->
          nth_error h' l = nth_error h l).
Proof.
  intros I (mo & Hm & H) Ho. pose proof H as (Ek & Ha & Dk & T).
  pose proof (nth_error_lt _ _ _ Hm) as Lm. pose proof (nth_error_lt _ _ _ Ha) as La.
  assert (F : Forall (ok_oloc h) (dict_values (dict_set d k o))).
  { apply Forall_forall. intros x Hx. unfold dict_values in Hx.
    apply in_map_iff in Hx as ([k' x'] & E & Hx). cbn in E. subst.
    apply dict_set_In in Hx as [Hx|Hx]; [inversion Hx; subst; auto|].
    pose proof (inv_arr _ I _ _ Ha) as Fo. rewrite Forall_forall in Fo. apply Fo.
    unfold dict_values. change x with (snd (k', x)). now apply in_map. }
  set (tbl' := tbl_put (m_tbl mo) k o).
  assert (T' : forall k2, tbl_get tbl' k2 = dict_get (dict_set d k o) k2).
  { intros k2. unfold tbl'. rewrite tbl_get_put, dict_get_set, T. reflexivity. }
  pose proof (Inv_upd_map h m mo (dict_set d k o) tbl' I Hm (dict_ok_set _ _ _ Dk) F T')
    as (I' & X' & HH & Hm').
  set (h' := upd (upd h (m_vals mo) (CArr (dict_values (dict_set d k o)))) m
                (CMap (MObj tbl' (dict_keys (dict_set d k o)) (m_vals mo)))) in *.
  exists h'. split; [|split; [exact I'|split; [exact X'|split; [|split]]]].
  - unfold map_setInternal. rewrite (proj2 (rd_map_iff _ _ _) Hm).
    rewrite (has_key_dict _ _ _ k H).
    assert (Ne : m_keys mo = [] -> dict_has d k = false).
    { intros E. rewrite Ek in E. unfold dict_keys in E. apply map_eq_nil in E. now subst. }
    replace (negb (dict_has d k) || match m_keys mo with [] => true | _ :: _ => false end)
      with (negb (dict_has d k)).
    2:{ destruct (m_keys mo); [rewrite Ne by auto; reflexivity | now rewrite orb_false_r]. }
    assert (L1 : (m < length (upd h (m_vals mo) (CArr (dict_values (dict_set d k o)))))%nat)
      by (now rewrite upd_length).
    destruct (dict_has d k) eqn:Hk; cbn [negb].
    + pose proof (find_index_dict d k) as FI. rewrite Ek. unfold dict_keys at 1.
      destruct (find_index k (map fst d)) as [n|] eqn:En; [|congruence].
      destruct FI as (_ & Ln & Hu & _).
      unfold bind, arr_SetValueAtIndex. rewrite (proj2 (rd_arr_iff _ _ _) Ha).
      assert (E1 : (Z.of_nat n <? 0)%Z = false) by (apply Z.ltb_ge; lia).
      assert (E2 : (Z.of_nat (length (dict_values d)) - 1 <? Z.of_nat n)%Z = false).
      { apply Z.ltb_ge. unfold dict_values. rewrite map_length. lia. }
      rewrite E1, E2. cbn [bind]. unfold bind. rewrite wr_ok by auto. unfold ret.
      rewrite Nat2Z.id. unfold dict_values at 1. rewrite <- Hu.
      assert (Ekeys : dict_keys d = dict_keys (dict_set d k o)).
      { unfold dict_keys. now rewrite dict_keys_set, Hk. }
      rewrite Ekeys. fold (dict_values (dict_set d k o)). rewrite wr_ok by auto. reflexivity.
    + unfold bind. rewrite (arr_AppendValue_eq _ _ _ _ Ha).
      assert (Hn : dict_get d k = None).
      { unfold dict_has in Hk. destruct (dict_get d k); congruence. }
      assert (Ev : dict_values d ++ [o] = dict_values (dict_set d k o)).
      { unfold dict_values. now rewrite dict_values_set_notin. }
      assert (Ekeys : m_keys mo ++ [k] = dict_keys (dict_set d k o)).
      { rewrite Ek. unfold dict_keys. now rewrite dict_keys_set, Hk. }
      rewrite Ev, Ekeys, wr_ok by auto. reflexivity.
  - eexists. split; [exact Hm' | exact HH].
  - unfold h'. now rewrite !upd_length.
  - intros l N1 N2. specialize (N2 _ Hm). unfold h'.
    rewrite nth_error_upd by (now rewrite upd_length).
    destruct (Nat.eqb_spec m l); [congruence|].
    rewrite nth_error_upd by auto. destruct (Nat.eqb_spec (m_vals mo) l); congruence.
Qed.

(** RemoveKey. *)
Lemma map_RemoveKey_ok h m d k :
  Inv h -> map_dict h m d ->
  if dict_has d k then
    exists h', map_RemoveKey m k h = Ok ((true, None), h')
      /\ Inv h' /\ hext h h' /\ map_dict h' m (dict_remove d k)
      /\ length h' = length h
      /\ (forall l, l <> m -> (forall mo, nth_error h m = Some (CMap mo) -> l <> m_vals mo) ->
            nth_error h' l = nth_error h l)
  else map_RemoveKey m k h = Ok ((false, Some EKeyMap), h).
Proof.
  intros I (mo & Hm & H). pose proof H as (Ek & Ha & Dk & T).
  pose proof (nth_error_lt _ _ _ Hm) as Lm. pose proof (nth_error_lt _ _ _ Ha) as La.
  unfold map_RemoveKey. rewrite (proj2 (rd_map_iff _ _ _) Hm). rewrite (has_key_dict _ _ _ k H).
  destruct (dict_has d k) eqn:Hk; cbn [negb]; [|reflexivity].
  assert (F : Forall (ok_oloc h) (dict_values (dict_remove d k))).
  { apply Forall_forall. intros x Hx. unfold dict_values in Hx.
    apply in_map_iff in Hx as ([k' x'] & E & Hx). cbn in E. subst.
    apply dict_In_remove in Hx.
    pose proof (inv_arr _ I _ _ Ha) as Fo. rewrite Forall_forall in Fo. apply Fo.
    unfold dict_values. change x with (snd (k', x)). now apply in_map. }
  set (tbl' := tbl_del (m_tbl mo) k).
  assert (T' : forall k2, tbl_get tbl' k2 = dict_get (dict_remove d k) k2).
  { intros k2. unfold tbl'. rewrite tbl_get_del, dict_get_remove, T by auto. reflexivity. }
  pose proof (Inv_upd_map h m mo (dict_remove d k) tbl' I Hm (dict_ok_remove _ _ Dk) F T')
    as (I' & X' & HH & Hm').
  set (h' := upd (upd h (m_vals mo) (CArr (dict_values (dict_remove d k)))) m
                (CMap (MObj tbl' (dict_keys (dict_remove d k)) (m_vals mo)))) in *.
  exists h'. split; [|split; [exact I'|split; [exact X'|split; [|split]]]].
  - pose proof (find_index_dict d k) as FI. rewrite Ek. unfold dict_keys at 1.
    destruct (find_index k (map fst d)) as [n|] eqn:En; [|congruence].
    destruct FI as (_ & Ln & _ & Hr1 & Hr2).
    unfold bind. rewrite wr_ok by auto.
    assert (NE : m_vals mo <> m) by congruence.
    assert (Ha1 : forall c, nth_error (upd h m c) (m_vals mo) = Some (CArr (dict_values d))).
    { intros c. rewrite nth_error_upd by auto. destruct (Nat.eqb_spec m (m_vals mo)); congruence. }
    unfold arr_RemoveValueAtIndex. rewrite (proj2 (rd_arr_iff _ _ _) (Ha1 _)).
    assert (E1 : (Z.of_nat n <? 0)%Z = false) by (apply Z.ltb_ge; lia).
    assert (E2 : (Z.of_nat (length (dict_values d)) - 1 <? Z.of_nat n)%Z = false).
    { apply Z.ltb_ge. unfold dict_values. rewrite map_length. lia. }
    rewrite E1, E2. unfold bind. rewrite wr_ok by (now rewrite upd_length). unfold ret.
    rewrite Nat2Z.id. unfold dict_values at 1, dict_keys at 1. rewrite <- Hr1, <- Hr2.
    fold (dict_values (dict_remove d k)). fold (dict_keys (dict_remove d k)).
    f_equal. f_equal. unfold h'. fold tbl'.
    clear - NE. generalize (CMap (MObj tbl' (dict_keys (dict_remove d k)) (m_vals mo))).
    generalize (CArr (dict_values (dict_remove d k))). revert NE. generalize (m_vals mo).
    intros a Na x y. revert a m Na. induction h as [|z h IH]; intros [|a] [|m] N; cbn; auto.
    + congruence.
    + f_equal. apply IH. congruence.
  - eexists. split; [exact Hm' | exact HH].
  - unfold h'. now rewrite !upd_length.
  - intros l N1 N2. specialize (N2 _ Hm). unfold h'.
    rewrite nth_error_upd by (now rewrite upd_length).
    destruct (Nat.eqb_spec m l); [congruence|].
    rewrite nth_error_upd by auto. destruct (Nat.eqb_spec (m_vals mo) l); congruence.
Qed.
