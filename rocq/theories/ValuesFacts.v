(** * Programs that change the list returned by Values() *)
From Coq Require Import Ascii String List NArith ZArith Bool Lia.
From Verif Require Import GoStr StrLemmas GoNum GoFloat Heap Common ValueModel ArrayModel MapModel JsonModel GetterModel
  ValuesModel SpecDict DictLemmas SpecWorld SpecValues Inv World Reach MapFacts GetterFacts GetterFrame.
Import ListNotations.

(** [h1] is [h2] except that the list of the map [m] is [vs m]. *)
Record sim (h1 h2 : heap) (vs : lists) : Prop := {
  s_len : length h1 = length h2;
  s_cell : forall l, ~ owned h2 l -> nth_error h1 l = nth_error h2 l;
  s_vals : forall m mo, nth_error h2 m = Some (CMap mo) -> nth_error h1 (m_vals mo) = Some (CArr (vs m));
  s_arr : forall m mo, nth_error h2 m = Some (CMap mo) -> exists xs, nth_error h2 (m_vals mo) = Some (CArr xs);
  s_own : forall m1 m2 mo1 mo2, nth_error h2 m1 = Some (CMap mo1) -> nth_error h2 m2 = Some (CMap mo2) ->
            m_vals mo1 = m_vals mo2 -> m1 = m2 }.

Lemma sim_start h w : Inv h -> impl h w -> sim h h (lists_of w).
Proof.
  intros I P. split; auto.
  - intros m mo Hm. destruct (inv_map _ I _ _ Hm) as [d D].
    assert (W : w_map w m = Some d) by (apply (im_map _ _ P); exists mo; auto).
    unfold lists_of, map_at. rewrite W. cbn [the]. apply D.
  - intros m mo Hm. destruct (inv_map _ I _ _ Hm) as [d D]. eexists. apply D.
  - apply (inv_own _ I).
Qed.

Section Sim.
  Context {h1 h2 : heap} {vs : lists} (S : sim h1 h2 vs).

  Lemma sim_other l c : nth_error h2 l = Some c -> (forall xs, c <> CArr xs) -> nth_error h1 l = Some c.
  Proof.
    intros H N. rewrite (s_cell _ _ _ S); auto. intros (m & mo & Hm & E). destruct (s_arr _ _ _ S _ _ Hm) as [xs Hx].
    rewrite E, H in Hx. inversion Hx. exact (N _ H1).
  Qed.
  Lemma sim_map m mo : nth_error h2 m = Some (CMap mo) -> nth_error h1 m = Some (CMap mo).
  Proof. intros H. apply sim_other; auto. discriminate. Qed.

  Lemma sim_agree : agree h2 h1.
  Proof.
    split; [|split].
    - intros l i H. apply sim_other; auto. discriminate.
    - intros l i H. apply sim_other; auto. discriminate.
    - intros l xs H N. now rewrite (s_cell _ _ _ S).
  Qed.

  Lemma sim_alloc c : (forall mo, c <> CMap mo) -> sim (h1 ++ [c]) (h2 ++ [c]) vs.
  Proof.
    intros N. assert (OM : forall m mo, nth_error (h2 ++ [c]) m = Some (CMap mo) -> nth_error h2 m = Some (CMap mo)).
    { intros m mo H. rewrite nth_error_alloc in H. destruct (Nat.ltb m (length h2)); auto.
      destruct (Nat.eqb m (length h2)); inversion H. now destruct (N mo). }
    split.
    - rewrite !app_length. now rewrite (s_len _ _ _ S).
    - intros l O. rewrite owned_alloc in O by auto. rewrite !nth_error_alloc, (s_len _ _ _ S), (s_cell _ _ _ S); auto.
    - intros m mo H. apply nth_error_alloc_old. apply (s_vals _ _ _ S). auto.
    - intros m mo H. destruct (s_arr _ _ _ S m mo (OM _ _ H)) as [xs Hx]. exists xs. now apply nth_error_alloc_old.
    - intros m1 m2 mo1 mo2 A B. apply (s_own _ _ _ S); auto.
  Qed.

  (** The same write to a cell that belongs to no map. *)
  Lemma sim_upd l c0 c : nth_error h2 l = Some c0 -> kind_of c = kind_of c0 -> ~ owned h2 l ->
    sim (upd h1 l c) (upd h2 l c) vs.
  Proof.
    intros H K NO. pose proof (nth_error_lt _ _ _ H) as L. assert (L1 : (l < length h1)%nat) by (rewrite (s_len _ _ _ S); auto).
    assert (OM : forall m mo, nth_error (upd h2 l c) m = Some (CMap mo) ->
       exists mo0, nth_error h2 m = Some (CMap mo0) /\ m_vals mo0 = m_vals mo).
    { intros m mo E. rewrite nth_error_upd in E by auto. destruct (Nat.eqb_spec l m); [|eauto].
      subst m. inversion E; subst c. destruct c0; try discriminate. cbn in K. inversion K. eauto. }
    assert (OW : forall a, owned (upd h2 l c) a -> owned h2 a).
    { intros a (m & mo & Hm & E). destruct (OM _ _ Hm) as (mo0 & H0 & E0). exists m, mo0. split; congruence. }
    assert (OW2 : forall a, owned h2 a -> owned (upd h2 l c) a).
    { intros a (m & mo & Hm & E). destruct (Nat.eq_dec l m) as [->|D].
      - rewrite H in Hm. inversion Hm; subst c0. destruct c as [| |mo'|]; try discriminate. cbn in K. inversion K.
        exists m, mo'. rewrite nth_error_upd, Nat.eqb_refl by auto. split; congruence.
      - exists m, mo. rewrite nth_error_upd by auto. now destruct (Nat.eqb_spec l m). }
    split.
    - rewrite !upd_length. apply S.
    - intros x O. rewrite !nth_error_upd by auto. destruct (Nat.eqb l x); auto. apply (s_cell _ _ _ S). auto.
    - intros m mo E. destruct (OM _ _ E) as (mo0 & H0 & <-). rewrite nth_error_upd by auto.
      destruct (Nat.eqb_spec l (m_vals mo0)) as [->|]; [destruct NO; exists m, mo0; auto|]. now apply (s_vals _ _ _ S).
    - intros m mo E. destruct (OM _ _ E) as (mo0 & H0 & <-). rewrite nth_error_upd by auto.
      destruct (Nat.eqb_spec l (m_vals mo0)) as [->|]; [destruct NO; exists m, mo0; auto|]. eapply (s_arr _ _ _ S); eauto.
    - intros m1 m2 mo1 mo2 A B E. destruct (OM _ _ A) as (a & A0 & EA), (OM _ _ B) as (b & B0 & EB).
      apply (s_own _ _ _ S _ _ _ _ A0 B0). congruence.
  Qed.

  (** A write to the list of a map in one of the heaps. *)
  Lemma sim_upd_1 m mo ys : nth_error h2 m = Some (CMap mo) -> sim (upd h1 (m_vals mo) (CArr ys)) h2 (lput vs m ys).
  Proof.
    intros H. pose proof (s_vals _ _ _ S _ _ H) as Hv. pose proof (nth_error_lt _ _ _ Hv) as L. split.
    - rewrite upd_length. apply S.
    - intros x O. rewrite nth_error_upd by auto. destruct (Nat.eqb_spec (m_vals mo) x); [|now apply (s_cell _ _ _ S)].
      destruct O. exists m, mo. auto.
    - intros m' mo' H'. rewrite nth_error_upd by auto. unfold lput. destruct (Nat.eqb_spec m' m) as [->|D].
      + rewrite H in H'. inversion H'; subst. now rewrite Nat.eqb_refl.
      + destruct (Nat.eqb_spec (m_vals mo) (m_vals mo')) as [E|]; [destruct D; symmetry; eapply (s_own _ _ _ S); eauto|].
        now apply (s_vals _ _ _ S).
    - apply S.
    - apply S.
  Qed.
  Lemma sim_upd_2 m mo ys : nth_error h2 m = Some (CMap mo) -> sim h1 (upd h2 (m_vals mo) (CArr ys)) vs.
  Proof.
    intros H. destruct (s_arr _ _ _ S _ _ H) as [xs Hx]. pose proof (nth_error_lt _ _ _ Hx) as L.
    assert (OM : forall m' mo', nth_error (upd h2 (m_vals mo) (CArr ys)) m' = Some (CMap mo') -> nth_error h2 m' = Some (CMap mo')).
    { intros m' mo' E. rewrite nth_error_upd in E by auto. destruct (Nat.eqb (m_vals mo) m'); [discriminate|auto]. }
    split.
    - rewrite upd_length. apply S.
    - intros x O. rewrite nth_error_upd by auto.
      assert (O2 : ~ owned h2 x).
      { intros (a & b & A & B). apply O. exists a, b. split; auto. rewrite nth_error_upd by auto.
        destruct (Nat.eqb_spec (m_vals mo) a); auto. congruence. }
      destruct (Nat.eqb_spec (m_vals mo) x); [|now apply (s_cell _ _ _ S)]. destruct O2. exists m, mo. auto.
    - intros m' mo' E. apply (s_vals _ _ _ S). auto.
    - intros m' mo' E. rewrite nth_error_upd by auto. destruct (Nat.eqb (m_vals mo) (m_vals mo')); eauto.
      eapply (s_arr _ _ _ S); eauto.
    - intros a b c d A B. apply (s_own _ _ _ S); auto.
  Qed.

  Lemma sim_new_map :
    sim (h1 ++ [CArr []; CMap (MObj [] [] (length h1))]) (h2 ++ [CArr []; CMap (MObj [] [] (length h2))])
        (lput vs (Datatypes.S (length h2)) []).
  Proof.
    pose proof (s_len _ _ _ S) as L. rewrite L.
    assert (G : forall (h : heap) x, length h = length h2 ->
      nth_error (h ++ [CArr []; CMap (MObj [] [] (length h2))]) x
      = if Nat.ltb x (length h2) then nth_error h x else if Nat.eqb x (length h2) then Some (CArr [])
        else if Nat.eqb x (Datatypes.S (length h2)) then Some (CMap (MObj [] [] (length h2))) else None).
    { intros h x E. destruct (Nat.ltb_spec x (length h2)).
      - rewrite nth_error_app1 by lia. reflexivity.
      - rewrite nth_error_app2 by lia. rewrite E. destruct (x - length h2)%nat as [|[|n]] eqn:Q; cbn.
        + destruct (Nat.eqb_spec x (length h2)); [reflexivity|lia].
        + destruct (Nat.eqb_spec x (length h2)); [lia|]. destruct (Nat.eqb_spec x (Datatypes.S (length h2))); [reflexivity|lia].
        + destruct (Nat.eqb_spec x (length h2)); [lia|]. destruct (Nat.eqb_spec x (Datatypes.S (length h2))); [lia|]. now destruct n. }
    assert (OM : forall m mo, nth_error (h2 ++ [CArr []; CMap (MObj [] [] (length h2))]) m = Some (CMap mo) ->
      nth_error h2 m = Some (CMap mo) \/ (m = Datatypes.S (length h2) /\ mo = MObj [] [] (length h2))).
    { intros m mo H. rewrite G in H by auto. destruct (Nat.ltb m (length h2)); auto. destruct (Nat.eqb m (length h2)); [discriminate|].
      destruct (Nat.eqb_spec m (Datatypes.S (length h2))); [|discriminate]. inversion H. auto. }
    split.
    - rewrite !app_length. cbn. lia.
    - intros x O. rewrite !G by auto. destruct (Nat.ltb_spec x (length h2)) as [Q|Q]; auto. apply (s_cell _ _ _ S).
      intros (m & mo & Hm & E). apply O. exists m, mo. split; auto. rewrite nth_error_app1; auto. now apply nth_error_lt in Hm.
    - intros m mo H. rewrite G by auto. unfold lput. destruct (OM _ _ H) as [H0|[-> ->]].
      + pose proof (nth_error_lt _ _ _ H0). destruct (Nat.eqb_spec m (Datatypes.S (length h2))); [lia|].
        pose proof (s_vals _ _ _ S _ _ H0) as V. pose proof (nth_error_lt _ _ _ V) as LV. rewrite L in LV.
        apply Nat.ltb_lt in LV. now rewrite LV.
      + cbn [m_vals]. rewrite Nat.ltb_irrefl, !Nat.eqb_refl. reflexivity.
    - intros m mo H. rewrite G by auto. destruct (OM _ _ H) as [H0|[-> ->]].
      + destruct (s_arr _ _ _ S _ _ H0) as [xs V]. pose proof (nth_error_lt _ _ _ V) as LV.
        apply Nat.ltb_lt in LV. rewrite LV. eauto.
      + cbn [m_vals]. rewrite Nat.ltb_irrefl, !Nat.eqb_refl. eauto.
    - intros m1 m2 mo1 mo2 A B E. destruct (OM _ _ A) as [A0|[-> ->]], (OM _ _ B) as [B0|[-> ->]]; auto.
      + eapply (s_own _ _ _ S); eauto.
      + destruct (s_arr _ _ _ S _ _ A0) as [xs V]. apply nth_error_lt in V. cbn in E. lia.
      + destruct (s_arr _ _ _ S _ _ B0) as [xs V]. apply nth_error_lt in V. cbn in E. lia.
  Qed.
End Sim.

Lemma find_position k l : find_index k l = key_position l k.
Proof. induction l as [|x t IH]; cbn; auto. destruct (str_eqb x k); auto. rewrite IH. now destruct (key_position t k). Qed.

Lemma valid_index_Z (l : list (option loc)) n :
  valid_index l n = negb ((n <? 0)%Z || (Z.of_nat (length l) - 1 <? n)%Z).
Proof. apply valid_index_model. Qed.

Lemma set_in_range {A} (l : list A) n x : ~ (n < length l)%nat -> list_set l n x = l.
Proof. revert n. induction l as [|y t IH]; intros [|n] H; cbn in *; auto; try lia. rewrite IH; auto. lia. Qed.
Lemma remove_in_range {A} (l : list A) n : ~ (n < length l)%nat -> list_remove l n = l.
Proof. revert n. induction l as [|y t IH]; intros [|n] H; cbn in *; auto; try lia. rewrite IH; auto. lia. Qed.

(** The methods of the list, on a heap that has it. *)
Lemma app_run h a l o : nth_error h a = Some (CArr l) -> arr_AppendValue a o h = Ok (tt, upd h a (CArr (l ++ [o]))).
Proof.
  intros H. unfold arr_AppendValue. rewrite (proj2 (rd_arr_iff _ _ _) H). apply wr_ok. now apply nth_error_lt in H.
Qed.
Lemma set_run h a l n o : nth_error h a = Some (CArr l) ->
  arr_SetValueAtIndex a n o h
  = if valid_index l n then Ok (None, upd h a (CArr (list_set l (Z.to_nat n) o)))
    else Ok (Some (if (n <? 0)%Z then EIndexNeg else EIndexRange), h).
Proof.
  intros H. unfold arr_SetValueAtIndex. rewrite (proj2 (rd_arr_iff _ _ _) H), valid_index_Z.
  destruct (n <? 0)%Z; cbn [orb negb]; auto. destruct (Z.of_nat (length l) - 1 <? n)%Z; cbn [negb]; auto.
  pose proof (nth_error_lt _ _ _ H) as L. unfold bind. rewrite wr_ok by exact L. now rewrite (upd_list_set l).
Qed.
Lemma rem_run h a l n : nth_error h a = Some (CArr l) ->
  arr_RemoveValueAtIndex a n h
  = if valid_index l n then Ok (None, upd h a (CArr (list_remove l (Z.to_nat n))))
    else Ok (Some (if (n <? 0)%Z then EIndexNeg else EIndexRange), h).
Proof.
  intros H. unfold arr_RemoveValueAtIndex. rewrite (proj2 (rd_arr_iff _ _ _) H), valid_index_Z.
  destruct (n <? 0)%Z; cbn [orb negb]; auto. destruct (Z.of_nat (length l) - 1 <? n)%Z; cbn [negb]; auto.
  pose proof (nth_error_lt _ _ _ H) as L. unfold bind. rewrite wr_ok by exact L. now rewrite remove_nth_list_remove.
Qed.
Lemma valid_nat (l : list (option loc)) n : valid_index l (Z.of_nat n) = Nat.ltb n (length l).
Proof.
  unfold valid_index. destruct (Nat.ltb_spec n (length l)).
  - apply andb_true_iff. split; [apply Z.leb_le|apply Z.ltb_lt]; lia.
  - apply andb_false_iff. right. apply Z.ltb_ge. lia.
Qed.

Lemma upd_same {A} (l : list A) n x : nth_error l n = Some x -> upd l n x = l.
Proof.
  revert n. induction l as [|y t IH]; intros [|n] H; cbn in *; try discriminate; [now inversion H|]. now rewrite IH.
Qed.
Lemma set_nat_run h a l n o : nth_error h a = Some (CArr l) ->
  exists e, arr_SetValueAtIndex a (Z.of_nat n) o h = Ok (e, upd h a (CArr (list_set l n o))).
Proof.
  intros H. rewrite (set_run h a l _ o H), valid_nat, Nat2Z.id. destruct (Nat.ltb_spec n (length l)); [eauto|].
  rewrite set_in_range by lia. rewrite (upd_same h a (CArr l)) by auto. eauto.
Qed.
Lemma rem_nat_run h a l n : nth_error h a = Some (CArr l) ->
  exists e, arr_RemoveValueAtIndex a (Z.of_nat n) h = Ok (e, upd h a (CArr (list_remove l n))).
Proof.
  intros H. rewrite (rem_run h a l _ H), valid_nat, Nat2Z.id. destruct (Nat.ltb_spec n (length l)); [eauto|].
  rewrite remove_in_range by lia. rewrite (upd_same h a (CArr l)) by auto. eauto.
Qed.

Lemma sim_not_owned h1 h2 vs m mo : sim h1 h2 vs -> nth_error h2 m = Some (CMap mo) -> ~ owned h2 m.
Proof. intros S H (m' & mo' & H' & E). destruct (s_arr _ _ _ S _ _ H') as [xs Hx]. rewrite E in Hx. congruence. Qed.

(** Writes to the list of a map in both heaps, followed by the same write to the map. *)
Lemma sim_both h1 h2 vs m mo mo' ys xs : sim h1 h2 vs -> nth_error h2 m = Some (CMap mo) -> m_vals mo' = m_vals mo ->
  sim (upd (upd h1 (m_vals mo) (CArr ys)) m (CMap mo')) (upd (upd h2 (m_vals mo) (CArr xs)) m (CMap mo')) (lput vs m ys).
Proof.
  intros S H E. pose proof (sim_upd_1 S m mo ys H) as S1. pose proof (sim_upd_2 S1 m mo xs H) as S2.
  destruct (s_arr _ _ _ S _ _ H) as [zs Hz]. pose proof (nth_error_lt _ _ _ Hz) as L.
  assert (H2 : nth_error (upd h2 (m_vals mo) (CArr xs)) m = Some (CMap mo)).
  { rewrite nth_error_upd by auto. destruct (Nat.eqb_spec (m_vals mo) m); congruence. }
  apply (sim_upd S2 m (CMap mo)); auto.
  - cbn. now rewrite E.
  - eapply sim_not_owned; eauto.
Qed.
Lemma sim_both_rev h1 h2 vs m mo mo' ys xs : sim h1 h2 vs -> nth_error h2 m = Some (CMap mo) -> m_vals mo' = m_vals mo ->
  sim (upd (upd h1 m (CMap mo')) (m_vals mo) (CArr ys)) (upd (upd h2 m (CMap mo')) (m_vals mo) (CArr xs)) (lput vs m ys).
Proof.
  intros S H E. pose proof (nth_error_lt _ _ _ H) as L.
  assert (S0 : sim (upd h1 m (CMap mo')) (upd h2 m (CMap mo')) vs).
  { apply (sim_upd S m (CMap mo)); auto; [cbn; now rewrite E|]. eapply sim_not_owned; eauto. }
  assert (H2 : nth_error (upd h2 m (CMap mo')) m = Some (CMap mo')) by (rewrite nth_error_upd, Nat.eqb_refl; auto).
  rewrite <- E. apply sim_upd_2 with (m := m); auto. apply sim_upd_1; auto.
Qed.

Lemma set_both h1 h2 vs m mo d k o : sim h1 h2 vs -> nth_error h2 m = Some (CMap mo) -> map_holds h2 mo d ->
  exists h1' h2', map_setInternal m k o h1 = Ok (tt, h1') /\ map_setInternal m k o h2 = Ok (tt, h2')
    /\ sim h1' h2' (lput vs m (list_after_set d k o (vs m))).
Proof.
  intros S H D. pose proof (sim_map S _ _ H) as H1. pose proof (s_vals _ _ _ S _ _ H) as V1.
  destruct (s_arr _ _ _ S _ _ H) as [xs V2].
  pose proof (nth_error_lt _ _ _ H) as L2. pose proof (nth_error_lt _ _ _ H1) as L1.
  unfold map_setInternal. rewrite (proj2 (rd_map_iff _ _ _) H), (proj2 (rd_map_iff _ _ _) H1).
  unfold list_after_set. rewrite <- find_position.
  rewrite (has_key_dict _ _ _ _ D). destruct D as (Ek & _). rewrite Ek.
  pose proof (find_index_dict d k) as F. unfold dict_keys. destruct (find_index k (map fst d)) as [n|] eqn:Fi.
  - destruct F as (Fh & _). rewrite Fh. cbn [negb orb].
    destruct (map fst d) as [|k0 ks] eqn:Ed; [discriminate|].
    destruct (set_nat_run h1 _ _ n o V1) as [e1 R1]. destruct (set_nat_run h2 _ _ n o V2) as [e2 R2].
    unfold bind. rewrite R1, R2, !wr_ok by (now rewrite upd_length).
    do 2 eexists. split; [reflexivity|]. split; [reflexivity|]. now apply sim_both.
  - rewrite F. cbn [negb orb]. unfold bind. rewrite (app_run _ _ _ _ V1), (app_run _ _ _ _ V2), !wr_ok by (now rewrite upd_length).
    do 2 eexists. split; [reflexivity|]. split; [reflexivity|]. now apply sim_both.
Qed.

Lemma remove_both h1 h2 vs m mo d k : sim h1 h2 vs -> nth_error h2 m = Some (CMap mo) -> map_holds h2 mo d ->
  exists r h1' h2', map_RemoveKey m k h1 = Ok (r, h1') /\ map_RemoveKey m k h2 = Ok (r, h2')
    /\ sim h1' h2' (lput vs m (list_after_remove d k (vs m))).
Proof.
  intros S H D. pose proof (sim_map S _ _ H) as H1. pose proof (s_vals _ _ _ S _ _ H) as V1.
  destruct (s_arr _ _ _ S _ _ H) as [xs V2].
  pose proof (nth_error_lt _ _ _ H) as L2. pose proof (nth_error_lt _ _ _ H1) as L1.
  unfold map_RemoveKey. rewrite (proj2 (rd_map_iff _ _ _) H), (proj2 (rd_map_iff _ _ _) H1).
  unfold list_after_remove. rewrite <- find_position.
  rewrite (has_key_dict _ _ _ _ D). destruct D as (Ek & _). rewrite Ek.
  pose proof (find_index_dict d k) as F. unfold dict_keys. destruct (find_index k (map fst d)) as [n|] eqn:Fi.
  - destruct F as (Fh & _). rewrite Fh. cbn [negb].
    assert (N : m_vals mo <> m) by congruence.
    unfold bind. rewrite !wr_ok by auto. set (mo' := MObj _ _ _).
    assert (V1' : nth_error (upd h1 m (CMap mo')) (m_vals mo) = Some (CArr (vs m))).
    { rewrite nth_error_upd by auto. destruct (Nat.eqb_spec m (m_vals mo)); congruence. }
    assert (V2' : nth_error (upd h2 m (CMap mo')) (m_vals mo) = Some (CArr xs)).
    { rewrite nth_error_upd by auto. destruct (Nat.eqb_spec m (m_vals mo)); congruence. }
    destruct (rem_nat_run _ _ _ n V1') as [e1 R1]. destruct (rem_nat_run _ _ _ n V2') as [e2 R2].
    rewrite R1, R2. unfold ret. do 3 eexists. split; [reflexivity|]. split; [reflexivity|]. now apply sim_both_rev.
  - rewrite F. cbn [negb]. exists (false, Some EKeyMap), h1, h2. split; [reflexivity|]. split; [reflexivity|].
    rewrite <- (upd_same h1 (m_vals mo) (CArr (vs m)) V1). now apply sim_upd_1.
Qed.

Definition plain_call (c : api) : Prop := forall m, c <> AMapValues m.

Lemma call_sim h1 h2 w vs c : Inv h2 -> impl h2 w -> sim h1 h2 vs -> ok_call w c -> plain_call c ->
  exists h1' h2', run_call c h1 = Ok (fst (spec_call c w), h1') /\ run_call c h2 = Ok (fst (spec_call c w), h2')
    /\ Inv h2' /\ impl h2' (snd (spec_call c w)) /\ sim h1' h2' (lists_after_call c w vs).
Proof.
  intros I P S K PC. destruct (run_call_ok h2 w c I P K) as (h2' & E & I' & _ & P').
  assert (G : forall h1', run_call c h1 = Ok (fst (spec_call c w), h1') -> sim h1' h2' (lists_after_call c w vs) ->
    exists h1' h2', run_call c h1 = Ok (fst (spec_call c w), h1') /\ run_call c h2 = Ok (fst (spec_call c w), h2')
      /\ Inv h2' /\ impl h2' (snd (spec_call c w)) /\ sim h1' h2' (lists_after_call c w vs)).
  { intros h1' A B. exists h1', h2'. auto. }
  clear I' P'. pose proof (s_len _ _ _ S) as L.
  assert (RM : forall m mo, nth_error h2 m = Some (CMap mo) -> rd_map h1 m = Ok mo /\ rd_map h2 m = Ok mo).
  { intros m mo H. split; apply rd_map_iff; auto. apply (sim_map S _ _ H). }
  assert (RA : forall a, has (w_arr w) a ->
    nth_error h1 a = Some (CArr (arr_at w a)) /\ nth_error h2 a = Some (CArr (arr_at w a)) /\ ~ owned h2 a).
  { intros a H. destruct (has_arr _ _ _ P H) as [Ha N]. split; auto. rewrite (s_cell _ _ _ S); auto. }
  destruct c; cbn [ok_call] in K; cbn [lists_after_call] in *; cbn [run_call] in E.
  - (* ANewVar *) inversion E; subst. apply (G (h1 ++ [CPtr s])).
    + cbn. unfold bind, alloc, ret. now rewrite L, (im_next _ _ P).
    + apply sim_alloc; auto; discriminate.
  - (* AVarSet *) destruct K as (s0 & Hs & T). apply (im_var _ _ P) in Hs.
    pose proof (nth_error_lt _ _ _ Hs) as Lp. unfold bind in E. rewrite wr_ok in E by auto. inversion E; subst.
    apply (G (upd h1 p (CPtr s))).
    + cbn. unfold bind. rewrite wr_ok by lia. reflexivity.
    + eapply (sim_upd S); eauto; [cbn; now rewrite T|]. intros (m & mo & Hm & Em).
      destruct (s_arr _ _ _ S _ _ Hm) as [xs Hx]. congruence.
  - (* AVarGet *) destruct K as [s Hs]. apply (im_var _ _ P) in Hs. pose proof (sim_other S _ _ Hs ltac:(discriminate)) as H1.
    unfold bind, mlift in E. rewrite (proj2 (rd_ptr_iff _ _ _) Hs) in E. inversion E; subst.
    apply (G h1); auto. cbn [run_call]. unfold bind, mlift. rewrite (proj2 (rd_ptr_iff _ _ _) H1). cbn [rbind]. unfold ret. f_equal.
  - (* ANewValue *) inversion E; subst. apply (G (h1 ++ [CVal i])).
    + cbn. unfold bind, new_value, alloc, ret. now rewrite L, (im_next _ _ P).
    + apply sim_alloc; auto; discriminate.
  - (* ANewArray *) inversion E; subst. apply (G (h1 ++ [CArr []])).
    + cbn. unfold bind, new_array, alloc, ret. now rewrite L, (im_next _ _ P).
    + apply sim_alloc; auto; discriminate.
  - (* ANewMap *) unfold bind in E. rewrite new_map_eq in E. unfold ret in E. injection E as Eo Eh. subst h2'.
    apply (G ((h1 ++ [CArr []]) ++ [CMap (MObj [] [] (length h1))])).
    + cbn [run_call]. unfold bind. rewrite new_map_eq. cbn. now rewrite L, (im_next _ _ P).
    + rewrite <- !app_assoc. cbn [app]. rewrite (im_next _ _ P). now apply sim_new_map.
  - (* AMapSetValue *) destruct K as [Km Ko]. pose proof (has_map _ _ _ P Km) as (mo & Hm & D).
    destruct (set_both h1 h2 vs m mo _ k o S Hm D) as (h1' & h2'' & E1 & E2 & S').
    unfold bind, map_SetValue in E. rewrite E2 in E. inversion E; subst.
    apply (G h1'); auto. cbn [run_call]. unfold bind, map_SetValue. now rewrite E1.
  - (* AMapSet *) destruct K as [Km Ko]. pose proof (has_map _ _ _ P Km) as D.
    assert (D1 : map_dict (h2 ++ [CVal i]) m (map_at w m)) by (apply map_dict_alloc; auto; discriminate).
    destruct D1 as (mo & Hm & D1).
    assert (S1 : sim (h1 ++ [CVal i]) (h2 ++ [CVal i]) vs) by (apply sim_alloc; auto; discriminate).
    destruct (set_both _ _ vs m mo _ k (Some (length h2)) S1 Hm D1) as (h1' & h2'' & E1 & E2 & S').
    unfold map_SetObject, new_value, bind, alloc in E; cbv beta iota in E. rewrite E2 in E. inversion E; subst.
    apply (G h1').
    + cbn [run_call]. unfold map_SetObject, new_value, bind, alloc; cbv beta iota. now rewrite L, E1.
    + now rewrite (im_next _ _ P).
  - (* AMapSetScalarValue *) pose proof (has_map _ _ _ P K) as D.
    set (c1 := CPtr s) in *. set (c2 := CVal (IPtr (stype_of s) (Some (length h2)))) in *.
    assert (D1 : map_dict ((h2 ++ [c1]) ++ [c2]) m (map_at w m)).
    { apply map_dict_alloc; [apply (Inv_alloc h2 c1 I Logic.I)|unfold c2; discriminate|].
      apply map_dict_alloc; auto. unfold c1. discriminate. }
    destruct D1 as (mo & Hm & D1).
    assert (S1 : sim ((h1 ++ [c1]) ++ [c2]) ((h2 ++ [c1]) ++ [c2]) vs).
    { apply sim_alloc; [apply sim_alloc|]; auto; (unfold c1, c2; discriminate). }
    destruct (set_both _ _ vs m mo _ k (Some (length (h2 ++ [c1]))) S1 Hm D1) as (h1' & h2'' & E1 & E2 & S').
    unfold map_SetScalarValue, map_SetObject, new_value, bind, alloc in E; cbv beta iota in E.
    fold c1 in E. fold c2 in E. rewrite E2 in E. inversion E; subst.
    apply (G h1').
    + cbn [run_call]. unfold map_SetScalarValue, map_SetObject, new_value, bind, alloc; cbv beta iota.
      replace (length h1) with (length h2). fold c1. fold c2.
      replace (length (h1 ++ [c1])) with (length (h2 ++ [c1])) by (rewrite !app_length; lia). now rewrite E1.
    + rewrite (im_next _ _ P). replace (Datatypes.S (length h2)) with (length (h2 ++ [c1])) by (rewrite app_length; cbn; lia). exact S'.
  - (* AMapRemoveKey *) pose proof (has_map _ _ _ P K) as (mo & Hm & D).
    destruct (remove_both h1 h2 vs m mo _ k S Hm D) as (r & h1' & h2'' & E1 & E2 & S').
    unfold bind in E. rewrite E2 in E. unfold ret in E. injection E as Eo Eh. subst h2''.
    apply (G h1'); auto. cbn [run_call]. unfold bind. rewrite E1. unfold ret. now rewrite Eo.
  - pose proof (has_map _ _ _ P K) as (mo & Hm & D). destruct (RM _ _ Hm) as [R1 R2].
    unfold bind, mlift, map_HasKey in E. rewrite R2 in E. cbn in E. injection E as Eo Eh. subst h2'.
    apply (G h1); auto. cbn [run_call]. unfold bind, mlift, map_HasKey. rewrite R1. cbn. now rewrite Eo.
  - pose proof (has_map _ _ _ P K) as (mo & Hm & D). destruct (RM _ _ Hm) as [R1 R2].
    unfold bind, mlift, map_GetValue in E. rewrite R2 in E. cbn in E. injection E as Eo Eh. subst h2'.
    apply (G h1); auto. cbn [run_call]. unfold bind, mlift, map_GetValue. rewrite R1. cbn. now rewrite Eo.
  - pose proof (has_map _ _ _ P K) as (mo & Hm & D). destruct (RM _ _ Hm) as [R1 R2].
    unfold bind, mlift, map_GetKeys in E. rewrite R2 in E. cbn in E. injection E as Eo Eh. subst h2'.
    apply (G h1); auto. cbn [run_call]. unfold bind, mlift, map_GetKeys. rewrite R1. cbn. now rewrite Eo.
  - now destruct (PC m).
  - (* AArrAppendValue *) destruct K as [Ka Ko]. destruct (RA _ Ka) as (H1 & H2 & N).
    unfold bind in E. rewrite (app_run _ _ _ _ H2) in E. inversion E; subst.
    apply (G (upd h1 a (CArr (arr_at w a ++ [o])))).
    + cbn [run_call]. unfold bind. now rewrite (app_run _ _ _ _ H1).
    + eapply (sim_upd S); eauto.
  - (* AArrAppend *) destruct K as [Ka Ko]. destruct (RA _ Ka) as (H1 & H2 & N).
    assert (S1 : sim (h1 ++ [CVal i]) (h2 ++ [CVal i]) vs) by (apply sim_alloc; auto; discriminate).
    unfold arr_AppendObject, new_value, bind, alloc in E; cbv beta iota in E.
    rewrite (app_run _ _ _ _ (nth_error_alloc_old _ _ _ _ H2)) in E. inversion E; subst.
    apply (G (upd (h1 ++ [CVal i]) a (CArr (arr_at w a ++ [Some (length h2)])))).
    + cbn [run_call]. unfold arr_AppendObject, new_value, bind, alloc; cbv beta iota.
      now rewrite (app_run _ _ _ _ (nth_error_alloc_old _ _ _ _ H1)), L.
    + eapply (sim_upd S1); [apply nth_error_alloc_old; exact H2|reflexivity|]. rewrite owned_alloc; auto. discriminate.
  - (* AArrSetValueAtIndex *) destruct K as [Ka Ko]. destruct (RA _ Ka) as (H1 & H2 & N).
    unfold bind in E. rewrite (set_run _ _ _ _ _ H2) in E. cbn [spec_call] in *.
    destruct (valid_index (arr_at w a) n) eqn:V; inversion E; subst.
    + apply (G (upd h1 a (CArr (list_set (arr_at w a) (Z.to_nat n) o)))).
      * cbn [run_call]. unfold bind. now rewrite (set_run _ _ _ _ _ H1), V.
      * eapply (sim_upd S); eauto.
    + apply (G h1); auto. cbn [run_call]. unfold bind. now rewrite (set_run _ _ _ _ _ H1), V.
  - destruct (RA _ K) as (H1 & H2 & N).
    unfold bind in E. rewrite (rem_run _ _ _ _ H2) in E. cbn [spec_call] in *.
    destruct (valid_index (arr_at w a) n) eqn:V; inversion E; subst.
    + apply (G (upd h1 a (CArr (list_remove (arr_at w a) (Z.to_nat n))))).
      * cbn [run_call]. unfold bind. now rewrite (rem_run _ _ _ _ H1), V.
      * eapply (sim_upd S); eauto.
    + apply (G h1); auto. cbn [run_call]. unfold bind. now rewrite (rem_run _ _ _ _ H1), V.
  - destruct (RA _ K) as (H1 & H2 & N).
    unfold bind, mlift, arr_Len in E. rewrite (proj2 (rd_arr_iff _ _ _) H2) in E. cbn in E. inversion E; subst.
    apply (G h1); auto. cbn [run_call]. unfold bind, mlift, arr_Len. now rewrite (proj2 (rd_arr_iff _ _ _) H1).
  - destruct (RA _ K) as (H1 & H2 & N).
    unfold bind, mlift, arr_GetValues in E. rewrite (proj2 (rd_arr_iff _ _ _) H2) in E. cbn in E. inversion E; subst.
    apply (G h1); auto. cbn [run_call]. unfold bind, mlift, arr_GetValues. now rewrite (proj2 (rd_arr_iff _ _ _) H1).
  - (* AValSetObject *) destruct K as [Kv Ko]. pose proof (has_val _ _ _ P Kv) as H2. pose proof (nth_error_lt _ _ _ H2) as Lv.
    pose proof (sim_other S _ _ H2 ltac:(discriminate)) as H1.
    unfold bind, value_SetObject in E. rewrite (proj2 (rd_val_iff _ _ _) H2), wr_ok in E by auto. inversion E; subst.
    apply (G (upd h1 v (CVal i))).
    + cbn [run_call]. unfold bind, value_SetObject. rewrite (proj2 (rd_val_iff _ _ _) H1), wr_ok by lia. reflexivity.
    + eapply (sim_upd S); eauto. intros (m & mo & Hm & Em). destruct (s_arr _ _ _ S _ _ Hm) as [xs Hx]. congruence.
  - (* AValGetObject *) pose proof (has_val _ _ _ P K) as H2. pose proof (sim_other S _ _ H2 ltac:(discriminate)) as H1.
    unfold bind, mlift, value_GetObject in E. rewrite (proj2 (rd_val_iff _ _ _) H2) in E. cbn in E. inversion E; subst.
    apply (G h1); auto. cbn [run_call]. unfold bind, mlift, value_GetObject. now rewrite (proj2 (rd_val_iff _ _ _) H1).
Qed.

Lemma step_sim h1 h2 w vs s : Inv h2 -> impl h2 w -> sim h1 h2 vs -> ok_step w s ->
  exists h1' h2', run_step s h1 = Ok (fst (fst (spec_step s w vs)), h1')
    /\ run_calls (calls_of [s]) h2 = Ok (fst (spec_calls (calls_of [s]) w), h2')
    /\ snd (fst (spec_step s w vs)) = snd (spec_calls (calls_of [s]) w)
    /\ Inv h2' /\ impl h2' (snd (fst (spec_step s w vs))) /\ sim h1' h2' (snd (spec_step s w vs)).
Proof.
  intros I P S K. destruct s as [c|m t].
  - assert (C : plain_call c \/ exists m, c = AMapValues m).
    { destruct c; try (left; intros ? Q; discriminate Q). right. eauto. }
    destruct C as [C|[m ->]].
    + destruct (call_sim h1 h2 w vs c I P S K C) as (h1' & h2' & E1 & E2 & I' & P' & S').
      exists h1', h2'.
      assert (Q : spec_step (Call c) w vs = (fst (spec_call c w), snd (spec_call c w), lists_after_call c w vs)).
      { destruct c; try (cbn [spec_step]; match goal with |- (let (_, _) := ?x in _) = _ => now destruct x end). now destruct (C m). }
      rewrite Q. cbn [fst snd calls_of flat_map app run_calls spec_calls run_step].
      destruct (spec_call c w) as [o w1] eqn:Sc. cbn [fst snd] in *.
      split; [exact E1|]. split; [unfold bind; rewrite E2; reflexivity|]. auto.
    + cbn [ok_step ok_call] in K. pose proof (has_map _ _ _ P K) as (mo & Hm & D).
      exists h1, h2. cbn [spec_step fst snd calls_of flat_map app].
      split.
      { cbn [run_step run_call]. unfold bind, mlift, map_Values, arr_GetValues.
        rewrite (proj2 (rd_map_iff _ _ _) (sim_map S _ _ Hm)). cbn [rbind].
        now rewrite (proj2 (rd_arr_iff _ _ _) (s_vals _ _ _ S _ _ Hm)). }
      split; [|auto]. destruct (run_call_ok h2 w (AMapValues m) I P K) as (h2' & E & _).
      cbn [run_calls]. unfold bind at 1. rewrite E.
      assert (h2' = h2) as ->; [|reflexivity]. cbn [run_call] in E. unfold bind, mlift, map_Values, arr_GetValues in E.
      rewrite (proj2 (rd_map_iff _ _ _) Hm) in E. cbn [rbind] in E. destruct D as (_ & Ha & _).
      rewrite (proj2 (rd_arr_iff _ _ _) Ha) in E. now inversion E.
  - assert (Km : has (w_map w) m) by (destruct t; cbn in K; tauto).
    pose proof (has_map _ _ _ P Km) as (mo & Hm & D). pose proof (s_vals _ _ _ S _ _ Hm) as V.
    cbn [run_step calls_of flat_map app run_calls spec_calls fst snd]. unfold run_list_call, bind at 1, mlift, map_Values.
    rewrite (proj2 (rd_map_iff _ _ _) (sim_map S _ _ Hm)). cbn [rbind].
    destruct t as [o|n o|n]; cbn [spec_step].
    + exists (upd h1 (m_vals mo) (CArr (vs m ++ [o]))), h2. unfold bind. rewrite (app_run _ _ _ _ V). cbn [fst snd].
      split; [reflexivity|]. split; [reflexivity|]. do 3 (split; auto). now apply sim_upd_1.
    + unfold bind. rewrite (set_run _ _ _ n o V). destruct (valid_index (vs m) n).
      * exists (upd h1 (m_vals mo) (CArr (list_set (vs m) (Z.to_nat n) o))), h2. cbn [fst snd].
        split; [reflexivity|]. split; [reflexivity|]. do 3 (split; auto). now apply sim_upd_1.
      * exists h1, h2. cbn [fst snd]. split; [reflexivity|]. split; [reflexivity|]. auto.
    + unfold bind. rewrite (rem_run _ _ _ n V). destruct (valid_index (vs m) n).
      * exists (upd h1 (m_vals mo) (CArr (list_remove (vs m) (Z.to_nat n)))), h2. cbn [fst snd].
        split; [reflexivity|]. split; [reflexivity|]. do 3 (split; auto). now apply sim_upd_1.
      * exists h1, h2. cbn [fst snd]. split; [reflexivity|]. split; [reflexivity|]. auto.
Qed.

Lemma spec_calls_app a b w : spec_calls (a ++ b) w
  = (fst (spec_calls a w) ++ fst (spec_calls b (snd (spec_calls a w))), snd (spec_calls b (snd (spec_calls a w)))).
Proof.
  revert w. induction a as [|c a IH]; intros w; cbn [app spec_calls fst snd].
  - now destruct (spec_calls b w).
  - destruct (spec_call c w) as [o w1]. rewrite IH. destruct (spec_calls a w1) as [os w2]. reflexivity.
Qed.
Lemma run_calls_app a b h oa h1 ob h2 : run_calls a h = Ok (oa, h1) -> run_calls b h1 = Ok (ob, h2) ->
  run_calls (a ++ b) h = Ok (oa ++ ob, h2).
Proof.
  revert h oa. induction a as [|c a IH]; intros h oa A B; cbn in *.
  - inversion A; subst. auto.
  - unfold bind in *. destruct (run_call c h) as [[o h']| | |]; try discriminate.
    destruct (run_calls a h') as [[os h'']| | |] eqn:Q; try discriminate. inversion A; subst.
    rewrite (IH _ _ Q B). reflexivity.
Qed.

Lemma steps_sim ss : forall h1 h2 w vs, Inv h2 -> impl h2 w -> sim h1 h2 vs -> ok_steps ss w vs ->
  exists h1' h2', run_steps ss h1 = Ok (fst (fst (spec_steps ss w vs)), h1')
    /\ run_calls (calls_of ss) h2 = Ok (fst (spec_calls (calls_of ss) w), h2')
    /\ snd (fst (spec_steps ss w vs)) = snd (spec_calls (calls_of ss) w)
    /\ Inv h2' /\ impl h2' (snd (fst (spec_steps ss w vs))) /\ sim h1' h2' (snd (spec_steps ss w vs)).
Proof.
  induction ss as [|s ss IH]; intros h1 h2 w vs I P S K.
  - exists h1, h2. cbn. auto 7.
  - cbn [ok_steps] in K. destruct K as [K1 K2].
    destruct (step_sim h1 h2 w vs s I P S K1) as (h1' & h2' & E1 & E2 & W & I' & P' & S').
    cbn [run_steps spec_steps]. destruct (spec_step s w vs) as [[o w1] vs1] eqn:Q. cbn [fst snd] in *.
    destruct (IH h1' h2' w1 vs1 I' P' S' K2) as (h1'' & h2'' & F1 & F2 & W2 & I2 & P2 & S2).
    destruct (spec_steps ss w1 vs1) as [[os w2] vs2] eqn:Q2. cbn [fst snd] in *.
    exists h1'', h2''. unfold bind. rewrite E1, F1.
    assert (C : calls_of (s :: ss) = calls_of [s] ++ calls_of ss).
    { unfold calls_of. cbn [flat_map]. now rewrite app_nil_r. }
    rewrite C, spec_calls_app, <- W. cbn [fst snd]. split; [reflexivity|].
    split; [now apply (run_calls_app _ _ _ _ h2')|]. auto.
Qed.

(** ** Readers *)
Section Read.
  Context (X : ext) {h1 h2 : heap} {vs : lists} (I : Inv h2) (S : sim h1 h2 vs).

  Lemma read_map m mo : nth_error h2 m = Some (CMap mo) -> rd_map h1 m = rd_map h2 m.
  Proof. intros H. now rewrite (proj2 (rd_map_iff _ _ _) H), (proj2 (rd_map_iff _ _ _) (sim_map S _ _ H)). Qed.

  Lemma items_ext {A} (P : A -> Prop) c1 c2 l : Forall P l -> (forall x, P x -> c1 x = c2 x) ->
    json_items c1 l = json_items c2 l.
  Proof. induction 1 as [|x l Hx Hl IH]; intros E; cbn; auto. now rewrite E, IH. Qed.

  Lemma members_ext c1 c2 t ks : (forall k, c1 (IPVal (match tbl_get t k with Some o => o | None => None end))
                                     = c2 (IPVal (match tbl_get t k with Some o => o | None => None end))) ->
    json_members c1 X t ks = json_members c2 X t ks.
  Proof. intros E. induction ks as [|k ks IH]; cbn; auto. destruct (x_escape X k); auto. now rewrite E, IH. Qed.

  Lemma read_conv f : forall i, ok_iface h2 i -> conv_json f X h1 i = conv_json f X h2 i.
  Proof.
    induction f as [|f IH]; intros i O; [reflexivity|].
    assert (OV : forall o, ok_oloc h2 o -> conv_json f X h1 (IPVal o) = conv_json f X h2 (IPVal o)).
    { intros [v|] Ho; apply IH; cbn; auto. }
    assert (M : forall m, (exists mo, nth_error h2 m = Some (CMap mo)) ->
       map_json (conv_json f X h1) X h1 m = map_json (conv_json f X h2) X h2 m).
    { intros m [mo Hm]. unfold map_json. rewrite (read_map _ _ Hm), (proj2 (rd_map_iff _ _ _) Hm). cbn [rbind].
      rewrite (members_ext (conv_json f X h1) (conv_json f X h2)); [reflexivity|]. intros k. apply OV.
      destruct (inv_map _ I _ _ Hm) as [d (_ & Hv & _ & T)]. rewrite T.
      destruct (dict_get d k) as [o|] eqn:Dk; [|exact Logic.I].
      pose proof (inv_arr _ I _ _ Hv) as F. rewrite Forall_forall in F. apply F. unfold dict_values.
      clear -Dk. induction d as [|[k' v'] d IHd]; cbn in *; [discriminate|].
      destruct (str_eqb k' k); [inversion Dk; auto|auto]. }
    assert (A : forall a, ok_pub_arr h2 a -> arr_json (conv_json f X h1) h1 a = arr_json (conv_json f X h2) h2 a).
    { intros a [[l Ha] N]. unfold arr_json.
      assert (Ha1 : nth_error h1 a = Some (CArr l)) by (rewrite (s_cell _ _ _ S); auto).
      rewrite (proj2 (rd_arr_iff _ _ _) Ha), (proj2 (rd_arr_iff _ _ _) Ha1). cbn [rbind].
      destruct l as [|o l]; auto.
      rewrite (items_ext (ok_oloc h2) (fun o => conv_json f X h1 (IPVal o)) (fun o => conv_json f X h2 (IPVal o)) (o :: l)); auto.
      eapply inv_arr; eauto. }
    assert (T : forall tv, ok_iface h2 tv ->
       json_held (conv_json f X h1) X h1 tv = json_held (conv_json f X h2) X h2 tv).
    { intros tv Ot. pose proof (agree_deref h2 h1 (sim_agree S) tv Ot) as De.
      unfold json_held. destruct (common_GetType X tv); auto; try (now rewrite De);
        destruct tv as [|s|t [p|]|m|[m|]|a|[a|]|v|[v|]|l|l|[l|]|[l|]|s|[s|]|tm|fn|[fn|]|[tm|]|nm [d|]]; auto. }
    cbn [conv_json]. destruct (common_IsNil i) eqn:N; auto.
    destruct i as [|s|t [p|]|m|[m|]|a|[a|]|v|[v|]|l|l|[l|]|[l|]|s|[s|]|tm|fn|[fn|]|[tm|]|nm [d|]]; try discriminate;
      cbn [rbind]; try (now apply T);
      destruct O as [j Hj];
      rewrite (proj2 (rd_val_iff _ _ _) Hj), (proj2 (rd_val_iff _ _ _) (sim_other S _ _ Hj ltac:(discriminate)));
      cbn [rbind]; apply T; eapply inv_val; eauto.
  Qed.
End Read.

Lemma step_call c w vs : plain_call c ->
  spec_step (Call c) w vs = (fst (spec_call c w), snd (spec_call c w), lists_after_call c w vs).
Proof.
  intros C. destruct c; try (cbn [spec_step]; match goal with |- (let (_, _) := ?x in _) = _ => now destruct x end).
  now destruct (C m).
Qed.

Lemma ok_calls_of ss : forall w vs, ok_steps ss w vs -> ok_calls (calls_of ss) w.
Proof.
  induction ss as [|s ss IH]; intros w vs K; [exact Logic.I|]. cbn [ok_steps] in K. destruct K as [K1 K2].
  destruct s as [c|m t].
  - change (calls_of (Call c :: ss)) with (c :: calls_of ss). cbn [ok_calls]. split; [exact K1|].
    assert (C : plain_call c \/ exists m, c = AMapValues m).
    { destruct c; try (left; intros ? Q; discriminate Q). right. eauto. }
    destruct C as [C|[m ->]]; [|eapply IH; exact K2].
    rewrite (step_call c w vs C) in K2. eapply IH; exact K2.
  - change (calls_of (OnValues m t :: ss)) with (calls_of ss).
    destruct t as [o|n o|n]; cbn [spec_step] in K2; try destruct (valid_index (vs m) n); eapply IH; eauto.
Qed.

Lemma values_steps X h ss :
  reachable X h -> ok_steps ss (view h) (lists_of (view h)) ->
  exists h1 h2, run_steps ss h = Ok (fst (fst (spec_steps ss (view h) (lists_of (view h)))), h1)
    /\ run_calls (calls_of ss) h = Ok (fst (spec_calls (calls_of ss) (view h)), h2) /\ reachable X h2
    /\ (forall m k g, has (w_map (view h2)) m -> run_getter g X h1 m k = run_getter g X h2 m k)
    /\ (forall m, has (w_map (view h2)) m -> map_GetKeys h1 m = map_GetKeys h2 m)
    /\ (forall m f b, has (w_map (view h2)) m -> map_ToJSONString f X h1 m b = map_ToJSONString f X h2 m b)
    /\ (forall a f b, has (w_arr (view h2)) a -> arr_ToJSONString f X h1 a b = arr_ToJSONString f X h2 a b).
Proof.
  intros R K. pose proof (reachable_Inv _ _ R) as I. pose proof (view_impl _ I) as P.
  destruct (steps_sim ss h h (view h) (lists_of (view h)) I P (sim_start _ _ I P) K)
    as (h1 & h2 & E1 & E2 & _ & I2 & _ & S2).
  exists h1, h2. split; [exact E1|]. split; [exact E2|].
  assert (R2 : reachable X h2) by (eapply reachable_run_calls; [exact R|eapply ok_calls_of; exact K|exact E2]).
  split; [exact R2|]. pose proof (view_impl _ I2) as P2.
  assert (MO : forall m, has (w_map (view h2)) m -> exists mo, nth_error h2 m = Some (CMap mo)).
  { intros m Hm. destruct (has_map _ _ _ P2 Hm) as (mo & H & _). eauto. }
  split; [|split; [|split]].
  - intros m k g Hm. destruct (has_map _ _ _ P2 Hm) as (mo & H & D).
    pose proof (read_map S2 _ _ H) as RM. pose proof (proj2 (rd_map_iff _ _ _) H) as RM2.
    assert (G2 : map_GetValue h2 m k = Ok (match tbl_get (m_tbl mo) k with Some o => o | None => None end)).
    { unfold map_GetValue. now rewrite RM2. }
    eapply (run_getter_agree X h2 h1 I2 (sim_agree S2) g m m k); [|exact G2| |].
    + unfold map_HasKey. now rewrite RM.
    + unfold map_GetValue. now rewrite RM, RM2.
    + destruct D as (_ & Hv & _ & T). rewrite T. destruct (dict_get (map_at (view h2) m) k) as [o|] eqn:Dk; [|exact Logic.I].
      pose proof (inv_arr _ I2 _ _ Hv) as F. rewrite Forall_forall in F. apply F. unfold dict_values.
      revert Dk. generalize (map_at (view h2) m). intros d. induction d as [|[k' v'] d IHd]; cbn; [discriminate|].
      destruct (str_eqb k' k); [intros Q; inversion Q; auto|auto].
  - intros m Hm. destruct (MO m Hm) as [mo H]. unfold map_GetKeys. now rewrite (read_map S2 _ _ H).
  - intros m f b Hm. destruct b as [t|]; [|reflexivity]. destruct (MO m Hm) as [mo H].
    pose proof (read_conv X I2 S2 (S f) (IMap m) (ex_intro _ mo H)) as C. cbn in C.
    unfold common_GetType in C. cbn in C. unfold map_ToJSONString. now rewrite C.
  - intros a f b Ha. destruct b as [t|]; [|reflexivity]. destruct (has_arr _ _ _ P2 Ha) as [H N].
    pose proof (read_conv X I2 S2 (S f) (IArr a) (conj (ex_intro _ _ H) N)) as C. cbn in C.
    unfold common_GetType in C. cbn in C. unfold arr_ToJSONString. now rewrite C.
Qed.
