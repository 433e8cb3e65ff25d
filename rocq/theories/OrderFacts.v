(** * Facts about programs that sort the slice returned by GetKeys *)
From Coq Require Import Ascii String List NArith ZArith Bool Lia Permutation.
From Verif Require Import GoStr StrLemmas GoNum GoFloat Heap Common ValueModel ArrayModel MapModel JsonModel GetterModel
  ValuesModel SpecDict DictLemmas SpecWorld SpecValues Inv World Reach MapFacts GetterFacts GetterFrame ValuesFacts
  KeysSlice SpecOrder OrderModel.
Import ListNotations.
Open Scope nat_scope.

(** ** The tables of reachable maps have no key twice *)
Definition tables_ok (h : heap) : Prop := forall l mo, nth_error h l = Some (CMap mo) -> NoDup (map fst (m_tbl mo)).

Lemma nodup_del t k : NoDup (map fst t) -> NoDup (map fst (tbl_del t k)) /\ ~ In k (map fst (tbl_del t k)).
Proof.
  unfold tbl_del. induction t as [|[k' v] t IH]; cbn; intros N; [split; auto|]. inversion N as [|? ? N1 N2]; subst. destruct (IH N2) as [A B].
  destruct (str_eqb_spec k' k); cbn [negb]; auto. cbn. split.
  - constructor; auto. intros C. apply N1. clear -C. induction t as [|[x y] t IH]; cbn in *; auto. destruct (negb _); cbn in *; tauto.
  - intros [C|C]; auto.
Qed.
Lemma nodup_put t k v : NoDup (map fst t) -> NoDup (map fst (tbl_put t k v)).
Proof. intros N. destruct (nodup_del t k N) as [A B]. unfold tbl_put. cbn. now constructor. Qed.

Lemma tables_alloc h c : (forall mo, c = CMap mo -> NoDup (map fst (m_tbl mo))) -> tables_ok h -> tables_ok (h ++ [c]).
Proof.
  intros C T l mo E. rewrite nth_error_alloc in E. destruct (Nat.ltb l (length h)); [eauto|]. destruct (Nat.eqb l (length h)); [|discriminate].
  injection E as ->. auto.
Qed.
Lemma tables_wr h a c u h' : (forall mo, c = CMap mo -> NoDup (map fst (m_tbl mo))) -> tables_ok h -> wr a c h = Ok (u, h') -> tables_ok h'.
Proof.
  intros C T E. unfold wr in E. destruct (Nat.ltb_spec a (length h)); [|discriminate]. injection E as _ <-.
  intros l mo Hl. rewrite nth_error_upd in Hl by auto. destruct (Nat.eqb a l); [injection Hl as ->; auto|eauto].
Qed.
Definition keeps {A} (m : M A) : Prop := forall h x h', tables_ok h -> m h = Ok (x, h') -> tables_ok h'.
Lemma keeps_bind {A B} (m : M A) (f : A -> M B) : keeps m -> (forall x, keeps (f x)) -> keeps (bind m f).
Proof. intros Km Kf h x h' T E. unfold bind in E. destruct (m h) as [[y h1]| | |] eqn:Q; try discriminate. eapply Kf; [|exact E]. eapply Km; eauto. Qed.
Lemma keeps_ret {A} (x : A) : keeps (ret x).
Proof. intros h y h' T E. injection E as _ <-. auto. Qed.
Lemma keeps_mlift {A} (f : heap -> res A) : keeps (mlift f).
Proof. intros h y h' T E. unfold mlift in E. destruct (f h); try discriminate. injection E as _ <-. auto. Qed.
Lemma keeps_alloc c : (forall mo, c = CMap mo -> NoDup (map fst (m_tbl mo))) -> keeps (alloc c).
Proof. intros C h y h' T E. injection E as _ <-. now apply tables_alloc. Qed.
Lemma keeps_wr a c : (forall mo, c = CMap mo -> NoDup (map fst (m_tbl mo))) -> keeps (wr a c).
Proof. intros C h y h' T E. eapply tables_wr; eauto. Qed.
Lemma keeps_app a o : keeps (arr_AppendValue a o).
Proof. intros h x h' T E. unfold arr_AppendValue in E. destruct (rd_arr h a); try discriminate. eapply tables_wr; eauto. discriminate. Qed.
Lemma keeps_setat a n o : keeps (arr_SetValueAtIndex a n o).
Proof.
  intros h x h' T E. unfold arr_SetValueAtIndex in E. destruct (rd_arr h a); try discriminate.
  destruct (_ <? _)%Z; [injection E as _ <-; auto|]. destruct (_ <? _)%Z; [injection E as _ <-; auto|].
  revert E. apply (keeps_bind (wr _ _)); auto; [apply keeps_wr; discriminate|intros; apply keeps_ret].
Qed.
Lemma keeps_remat a n : keeps (arr_RemoveValueAtIndex a n).
Proof.
  intros h x h' T E. unfold arr_RemoveValueAtIndex in E. destruct (rd_arr h a); try discriminate.
  destruct (_ <? _)%Z; [injection E as _ <-; auto|]. destruct (_ <? _)%Z; [injection E as _ <-; auto|].
  revert E. apply (keeps_bind (wr _ _)); auto; [apply keeps_wr; discriminate|intros; apply keeps_ret].
Qed.
Lemma keeps_set m k o : keeps (map_setInternal m k o).
Proof.
  intros h x h' T E. unfold map_setInternal in E. destruct (rd_map h m) as [mo| | |] eqn:R; try discriminate.
  apply rd_map_iff in R. pose proof (nodup_put (m_tbl mo) k o (T _ _ R)) as N.
  assert (W : forall ks, keeps (wr m (CMap (MObj (tbl_put (m_tbl mo) k o) ks (m_vals mo))))) by (intros ks; apply keeps_wr; intros ? [= <-]; exact N).
  destruct (_ || _).
  - revert E. apply keeps_bind; auto using keeps_app.
  - destruct (find_index _ _); [|eapply W; eauto]. revert E. apply keeps_bind; auto using keeps_setat.
Qed.
Lemma keeps_remove m k : keeps (map_RemoveKey m k).
Proof.
  intros h x h' T E. unfold map_RemoveKey in E. destruct (rd_map h m) as [mo| | |] eqn:R; try discriminate.
  apply rd_map_iff in R. pose proof (proj1 (nodup_del (m_tbl mo) k (T _ _ R))) as N.
  assert (W : forall ks, keeps (wr m (CMap (MObj (tbl_del (m_tbl mo) k) ks (m_vals mo))))) by (intros ks; apply keeps_wr; intros ? [= <-]; exact N).
  destruct (negb _); [injection E as _ <-; auto|]. destruct (find_index _ _).
  - revert E. apply keeps_bind; auto. intros _. apply keeps_bind; [apply keeps_remat|intros; apply keeps_ret].
  - revert E. apply keeps_bind; auto. intros _. apply keeps_ret.
Qed.
Lemma reachable_tables X h : reachable X h -> tables_ok h.
Proof.
  induction 1 as [|h c o h' R IH K E]; [intros [|l] mo E; discriminate|].
  enough (Q : keeps (run_call c)) by (eapply Q; eauto). clear.
  assert (NV : forall i, keeps (new_value i)) by (intros i; apply keeps_alloc; discriminate).
  assert (NA : keeps new_array) by (apply keeps_alloc; discriminate).
  assert (SO : forall m k i, keeps (map_SetObject m k i)) by (intros m k i; apply keeps_bind; auto; intros; apply keeps_set).
  destruct c; cbn [run_call]; try (apply keeps_bind; [|intros; apply keeps_ret]); try apply keeps_mlift; auto.
  - apply keeps_alloc. discriminate.
  - apply keeps_wr. discriminate.
  - apply keeps_bind; auto. intros a. apply keeps_alloc. intros mo [= <-]. constructor.
  - apply keeps_set.
  - apply keeps_bind; [apply keeps_alloc; discriminate|]. intros p. apply SO.
  - apply keeps_remove.
  - apply keeps_bind; [apply keeps_mlift|]. intros a. apply keeps_bind; [apply keeps_mlift|intros; apply keeps_ret].
  - apply keeps_app.
  - apply keeps_bind; auto. intros; apply keeps_app.
  - apply keeps_setat.
  - apply keeps_remat.
  - intros h x h' T E. unfold value_SetObject in E. destruct (rd_val h v); try discriminate. eapply tables_wr; eauto. discriminate.
Qed.

(** ** Reordering by calls *)
Lemma upd_upd {A} (l : list A) n x y : upd (upd l n x) n y = upd l n y.
Proof. revert n. induction l; intros [|n]; cbn; f_equal; auto. Qed.

Section Reorder.
  Variables (X : ext) (h0 : heap) (m v : loc).
  Hypothesis (Nmv : m <> v) (Lm : m < length h0) (Lv : v < length h0).
  Hypothesis (M0 : exists mo, nth_error h0 m = Some (CMap mo)) (V0 : exists xs, nth_error h0 v = Some (CArr xs)).
  Let H (t : list (str * option loc)) (d : dict (option loc)) : heap := upd (upd h0 v (CArr (map snd d))) m (CMap (MObj t (map fst d) v)).
  Let fits (t : list (str * option loc)) (d : dict (option loc)) : Prop := dict_ok d /\ forall k, tbl_get t k = dict_get d k.

  Lemma H_m t d : nth_error (H t d) m = Some (CMap (MObj t (map fst d) v)).
  Proof. unfold H. rewrite nth_error_upd by (now rewrite upd_length). now rewrite Nat.eqb_refl. Qed.
  Lemma H_v t d : nth_error (H t d) v = Some (CArr (map snd d)).
  Proof.
    unfold H. rewrite nth_error_upd by (now rewrite upd_length). destruct (Nat.eqb_spec m v); [contradiction|].
    rewrite nth_error_upd by auto. now rewrite Nat.eqb_refl.
  Qed.
  Lemma H_len t d : length (H t d) = length h0.
  Proof. unfold H. now rewrite !upd_length. Qed.
  Lemma upd_comm {A} (l : list A) a b (x y : A) : a <> b -> upd (upd l a x) b y = upd (upd l b y) a x.
  Proof. revert a b. induction l as [|z l IH]; intros [|a] [|b] N; cbn; auto; [congruence|]. f_equal. apply IH. congruence. Qed.
  Lemma H_put t d l t' ks : upd (upd (H t d) v (CArr l)) m (CMap (MObj t' ks v)) = upd (upd h0 v (CArr l)) m (CMap (MObj t' ks v)).
  Proof. unfold H. rewrite (upd_comm _ m v) by auto. rewrite !upd_upd. reflexivity. Qed.

  Lemma H_has t d : has (w_map (view (H t d))) m.
  Proof. eexists. cbn [view w_map]. rewrite H_m. cbn [m_vals m_keys]. rewrite H_v. reflexivity. Qed.
  Lemma H_val t d o : ok_value_handle (view h0) o -> ok_value_handle (view (H t d)) o.
  Proof.
    destruct o as [x|]; cbn; auto. intros [i E]. cbn in E. exists i. cbn. unfold H. rewrite nth_error_upd by (now rewrite upd_length).
    destruct M0 as [mo Em]. destruct V0 as [xs Ev].
    destruct (Nat.eqb_spec m x) as [<-|]; [now rewrite Em in E|]. rewrite nth_error_upd by auto.
    destruct (Nat.eqb_spec v x) as [<-|]; [now rewrite Ev in E|]. exact E.
  Qed.

  Lemma H_set t d k o : fits t d -> run_call (AMapSetValue m k o) (H t d) = Ok (ODone, H (tbl_put t k o) (dict_set d k o)).
  Proof.
    intros [N T]. cbn [run_call]. unfold bind at 1. unfold map_SetValue, map_setInternal. rewrite (proj2 (rd_map_iff _ _ _) (H_m t d)).
    unfold has_key. cbn [m_tbl m_keys m_vals]. rewrite T. pose proof (find_index_dict d k) as F. pose proof (dict_keys_set d k o) as Ks. unfold dict_has in *.
    destruct (dict_get d k) as [o'|] eqn:Dk; cbn [negb orb].
    - destruct (map fst d) as [|k0 ks0] eqn:Ed; [destruct d; discriminate|]. rewrite <- Ed in *.
      destruct (find_index k (map fst d)) as [n|] eqn:Fi; [|discriminate]. destruct F as (_ & L & Fs & _).
      unfold bind. destruct (set_nat_run (H t d) v _ n o (H_v t d)) as [e ->]. rewrite wr_ok by (rewrite upd_length, H_len; auto).
      unfold ret. rewrite H_put. unfold H. rewrite Ks, Fs, (upd_list_set (map snd d)). reflexivity.
    - unfold bind. rewrite (app_run _ _ _ o (H_v t d)). rewrite wr_ok by (rewrite upd_length, H_len; auto). unfold ret. rewrite H_put.
      unfold H. rewrite Ks, dict_values_set_notin by auto. reflexivity.
  Qed.
  Lemma H_remove t d k : fits t d -> In k (map fst d) ->
    exists o, run_call (AMapRemoveKey m k) (H t d) = Ok (o, H (tbl_del t k) (dict_remove d k)).
  Proof.
    intros [N T] I. cbn [run_call]. unfold bind at 1. unfold map_RemoveKey. rewrite (proj2 (rd_map_iff _ _ _) (H_m t d)).
    unfold has_key. cbn [m_tbl m_keys m_vals]. rewrite T. pose proof (find_index_dict d k) as F. pose proof (proj2 (dict_has_keys d k) I) as Dh.
    unfold dict_has in *. destruct (dict_get d k) as [o'|] eqn:Dk; [|discriminate]. cbn [negb].
    destruct (find_index k (map fst d)) as [n|] eqn:Fi; [|discriminate]. destruct F as (_ & L & _ & Fk & Fv).
    unfold bind. rewrite wr_ok by (rewrite H_len; auto). set (h1 := upd (H t d) m _).
    assert (E1 : nth_error h1 v = Some (CArr (map snd d))).
    { unfold h1. rewrite nth_error_upd by (rewrite H_len; auto). destruct (Nat.eqb_spec m v); [contradiction|]. apply H_v. }
    destruct (rem_nat_run h1 v _ n E1) as [e ->]. unfold ret. eexists. f_equal. f_equal. unfold h1, H. rewrite upd_upd.
    rewrite (upd_comm _ m v) by auto. rewrite upd_upd. rewrite Fk, Fv, (remove_nth_list_remove (map snd d)). reflexivity.
  Qed.

  Lemma fits_set t d k o : fits t d -> fits (tbl_put t k o) (dict_set d k o).
  Proof. intros [N T]. split; [now apply dict_ok_set|]. intros k2. now rewrite tbl_get_put, dict_get_set, T. Qed.
  Lemma fits_remove t d k : fits t d -> fits (tbl_del t k) (dict_remove d k).
  Proof. intros [N T]. split; [now apply dict_ok_remove|]. intros k2. now rewrite tbl_get_del, dict_get_remove, T. Qed.

  Lemma reach_set t d k o : reachable X (H t d) -> fits t d -> ok_value_handle (view h0) o -> reachable X (H (tbl_put t k o) (dict_set d k o)).
  Proof. intros R F O. eapply R_call; [exact R| |apply H_set; exact F]. split; [apply H_has|now apply H_val]. Qed.
  Lemma reach_clear d : forall t, reachable X (H t d) -> fits t d -> exists t', reachable X (H t' []) /\ fits t' [].
  Proof.
    induction d as [|[k o] d IH]; intros t R F; [eauto|].
    destruct (H_remove t _ k F (or_introl eq_refl)) as [u E]. pose proof (fits_remove _ _ k F) as F'. cbn in F', E. rewrite str_eqb_refl in F', E.
    apply (IH (tbl_del t k)); auto. apply (R_call X _ (AMapRemoveKey m k) u _ R (H_has _ _) E).
  Qed.
  Lemma reach_sets l : forall t d, reachable X (H t d) -> fits t d -> Forall (fun kv => ok_value_handle (view h0) (snd kv)) l ->
    let t' := fold_left (fun t kv => tbl_put t (fst kv) (snd kv)) l t in
    let d' := fold_left (fun d kv => dict_set d (fst kv) (snd kv)) l d in
    reachable X (H t' d') /\ fits t' d'.
  Proof.
    induction l as [|[k o] l IH]; intros t d R F O; [auto|]. inversion O; subst. cbn [fold_left fst snd]. apply IH; auto.
    - now apply reach_set.
    - now apply fits_set.
  Qed.

  (** Setting keys that are not there lists them. *)
  Lemma sets_new l : forall d : dict (option loc), NoDup (map fst (d ++ l)) -> fold_left (fun d kv => dict_set d (fst kv) (snd kv)) l d = d ++ l.
  Proof.
    induction l as [|[k o] l IH]; intros d N; cbn [fold_left fst snd]; [now rewrite app_nil_r|].
    rewrite dict_set_notin.
    - rewrite IH; rewrite <- app_assoc; auto.
    - apply dict_get_None. rewrite map_app in N. apply NoDup_remove_2 in N. intros C. apply N. apply in_or_app. auto.
  Qed.
  (** Setting keys to what they are changes nothing but the table. *)
  Lemma dict_set_id (d : dict (option loc)) k o : dict_get d k = Some o -> dict_set d k o = d.
  Proof. induction d as [|[k' o'] d IH]; cbn; [discriminate|]. destruct (str_eqb_spec k' k); [intros [= ->]; auto|]. intros E. now rewrite IH. Qed.
  Lemma sets_old (d : dict (option loc)) l : Forall (fun kv => dict_get d (fst kv) = Some (snd kv)) l ->
    fold_left (fun d kv => dict_set d (fst kv) (snd kv)) l d = d.
  Proof. intros F. induction F as [|[k o] l E F IH]; cbn [fold_left fst snd] in *; auto. now rewrite dict_set_id. Qed.
  Lemma filter_none {A} (f : A -> bool) l : (forall x, In x l -> f x = false) -> filter f l = [].
  Proof. induction l as [|x l IH]; intros F; cbn; auto. rewrite F by (now left). apply IH. intros; apply F; now right. Qed.
  Lemma filter_all {A} (f : A -> bool) l : (forall x, In x l -> f x = true) -> filter f l = l.
  Proof. induction l as [|x l IH]; intros F; cbn; auto. rewrite F by (now left). f_equal. apply IH. intros; apply F; now right. Qed.
  Lemma puts_back t : NoDup (map fst t) -> forall t0, (forall kv, In kv t0 -> In (fst kv) (map fst t)) ->
    fold_right (fun kv t => tbl_put t (fst kv) (snd kv)) t0 t = t.
  Proof.
    intros N t0 S0.
    assert (G : fold_right (fun kv t => tbl_put t (fst kv) (snd kv)) t0 t = t ++ filter (fun kv => negb (existsb (str_eqb (fst kv)) (map fst t))) t0).
    { clear S0. induction t as [|[k o] t IH]; cbn [fold_right fst snd map app].
      - cbn. symmetry. now apply filter_all.
      - inversion N as [|? ? N1 N2]; subst. rewrite IH by auto. unfold tbl_put. f_equal. unfold tbl_del. rewrite filter_app. f_equal.
        + apply filter_all. intros [x y] I. cbn. destruct (str_eqb_spec x k); auto. subst. destruct N1. change k with (fst (k, y)). now apply in_map.
        + clear. induction t0 as [|[x y] t0 IH]; cbn; auto. destruct (str_eqb_spec x k); cbn [orb negb].
          * destruct (negb (existsb _ _)); cbn; [subst; rewrite str_eqb_refl; cbn|]; auto.
          * destruct (negb (existsb _ _)); cbn; [destruct (str_eqb_spec x k); [contradiction|]; cbn; now rewrite IH|auto]. }
    rewrite G, filter_none, app_nil_r; auto. intros kv I. apply negb_false_iff, existsb_exists. exists (fst kv). split; auto. apply str_eqb_refl.
  Qed.

  Lemma reach_reorder t d ks : reachable X (H t d) -> fits t d -> NoDup (map fst t) ->
    (forall k o, dict_get d k = Some o -> ok_value_handle (view h0) o) -> Permutation (map fst d) ks ->
    reachable X (H t (reorder d ks)) /\ fits t (reorder d ks).
  Proof.
    intros R F Nt O Pk. destruct (reach_clear d t R F) as (t1 & R1 & F1).
    pose proof (Permutation_NoDup Pk (proj1 F)) as Nk.
    assert (Kr : map fst (reorder d ks) = ks) by (unfold reorder; rewrite map_map; cbn; apply map_id).
    assert (O1 : Forall (fun kv => ok_value_handle (view h0) (snd kv)) (reorder d ks)).
    { apply Forall_forall. intros kv I. unfold reorder in I. apply in_map_iff in I as (k & <- & I). cbn [snd].
      destruct (dict_get d k) as [o|] eqn:E; cbn [the]; [eauto|exact Logic.I]. }
    destruct (reach_sets (reorder d ks) t1 [] R1 F1 O1) as [R2 F2]. cbn zeta in R2, F2.
    rewrite (sets_new (reorder d ks) []) in R2, F2 by (cbn [app]; rewrite Kr; exact Nk). cbn [app] in R2, F2.
    set (t2 := fold_left _ (reorder d ks) t1) in *.
    assert (G : forall k, dict_get (reorder d ks) k = dict_get d k).
    { intros k. destruct (dict_get d k) as [o|] eqn:E.
      - apply dict_In_get; [unfold dict_ok; now rewrite Kr|]. unfold reorder. apply in_map_iff. exists k. rewrite E. split; auto.
        apply (Permutation_in _ Pk). apply dict_get_In in E. change k with (fst (k, o)). now apply in_map.
      - apply dict_get_None. rewrite Kr. apply dict_get_None in E. intros C. apply E. apply (Permutation_in _ (Permutation_sym Pk) C). }
    assert (It : forall k o, In (k, o) t -> dict_get d k = Some o).
    { intros k o I. rewrite <- (proj2 F). rewrite tbl_get_dict. apply dict_In_get; auto. }
    assert (O2 : Forall (fun kv => ok_value_handle (view h0) (snd kv)) (rev t)).
    { apply Forall_forall. intros [k o] I. apply in_rev in I. cbn. eauto. }
    destruct (reach_sets (rev t) t2 _ R2 F2 O2) as [R3 F3]. cbn zeta in R3, F3.
    rewrite (sets_old (reorder d ks) (rev t)) in R3, F3 by (apply Forall_forall; intros [k o] I; apply in_rev in I; cbn; rewrite G; eauto).
    rewrite <- fold_left_rev_right, rev_involutive in R3, F3.
    rewrite puts_back in R3, F3; auto.
    all: intros kv I; destruct (dict_get d (fst kv)) as [o|] eqn:E;
      [rewrite <- (proj2 F), tbl_get_dict in E; apply dict_get_In in E; change (fst kv) with (fst (fst kv, o)); now apply in_map
      |rewrite <- G, <- (proj2 F2), tbl_get_dict in E; apply dict_get_None in E; destruct E; now apply in_map].
  Qed.
End Reorder.

(** ** Programs *)
Lemma sim_ext h1 h2 vs vs' : (forall m, vs m = vs' m) -> sim h1 h2 vs -> sim h1 h2 vs'.
Proof. intros E [A B C D F]. split; auto. intros m mo Hm. rewrite <- E. eauto. Qed.
Lemma impl_same h w w' : w_next w = w_next w' -> same_world w w' -> impl h w -> impl h w'.
Proof.
  intros N (A & B & C & D) [P0 P1 P2 P3 P4]. split; [congruence| | | |]; intros l x;
    rewrite <- ?A, <- ?B, <- ?C, <- ?D; auto.
Qed.
Lemma impl_unique h w w' : impl h w -> impl h w' -> same_world w w'.
Proof.
  intros [P0 P1 P2 P3 P4] [Q0 Q1 Q2 Q3 Q4].
  assert (E : forall A (f g : nat -> option A), (forall l x, f l = Some x <-> g l = Some x) -> forall l, f l = g l).
  { intros A f g F l. destruct (f l) as [x|] eqn:Fl; [symmetry; now apply F|]. destruct (g l) as [y|] eqn:Gl; auto. apply F in Gl. congruence. }
  split; [|split; [|split]]; apply E; intros l x.
  - now rewrite P1, Q1.
  - now rewrite P2, Q2.
  - now rewrite P3, Q3.
  - now rewrite P4, Q4.
Qed.

Lemma reachable_calls_impl X cs h w os h' : reachable X h -> impl h w -> ok_calls cs w -> run_calls cs h = Ok (os, h') -> reachable X h'.
Proof.
  intros R P K E. apply (reachable_run_calls X cs h os h' R); auto. pose proof (view_impl _ (reachable_Inv _ _ R)) as V.
  destruct (impl_unique _ _ _ P V) as (A & B & C & D). pose proof (im_next _ _ P) as N1. pose proof (im_next _ _ V) as N2.
  assert (G : forall cs w w', w_next w = w_next w' -> same_world w w' -> ok_calls cs w -> ok_calls cs w').
  { clear. induction cs as [|c cs IH]; intros w w' N W K; [exact Logic.I|]. destruct K as [K1 K2]. split.
    - destruct W as (A & B & C & D). unfold has in *.
      assert (Ho : forall o, ok_value_handle w o -> ok_value_handle w' o) by (intros [v|]; cbn; unfold has; rewrite ?C; auto).
      assert (Hi : forall i, ok_object w i -> ok_object w' i).
      { intros [| |t [p|]|m|[m|]|a|[a|]|v|[v|]| | |[?|]|[?|]| |[?|]| | |[?|]|[?|]|? [?|]]; unfold ok_object, has; rewrite ?A, ?B, ?C, ?D; auto. }
      destruct c; cbn [ok_call] in *; unfold has in *; rewrite <- ?A, <- ?B, <- ?C, <- ?D; intuition auto.
    - assert (Q : w_next (snd (spec_call c w)) = w_next (snd (spec_call c w')) /\ same_world (snd (spec_call c w)) (snd (spec_call c w'))).
      { destruct W as (A & B & C & D).
        assert (Em : forall m, map_at w m = map_at w' m) by (intros m; unfold map_at; now rewrite A).
        assert (Ea : forall a, arr_at w a = arr_at w' a) by (intros a; unfold arr_at; now rewrite B).
        assert (Pt : forall T (f g : nat -> option T) n x l, (forall l, f l = g l) -> put f n x l = put g n x l) by (intros T f g n x l H; unfold put; now rewrite H).
        unfold same_world. destruct c; cbn [spec_call snd]; rewrite <- ?Em, <- ?Ea, <- ?N;
          repeat match goal with |- context [if ?b then _ else _] => destruct b end;
          cbn [snd w_next w_map w_arr w_val w_var set_map set_arr new_val new_var]; rewrite <- ?N; repeat split; intros; auto. }
      destruct Q as [Q1 Q2]. eapply IH; eauto. }
  apply (G cs w (view h)); [rewrite N1; symmetry; exact N2|exact (conj A (conj B (conj C D)))|exact K].
Qed.

Lemma existsb_upd {A} (f : A -> bool) l n x y : nth_error l n = Some x -> f x = f y -> existsb f (upd l n y) = existsb f l.
Proof. revert n. induction l as [|z l IH]; intros [|n] E F; cbn in *; try discriminate; [injection E as ->; now rewrite F|]. now rewrite (IH n). Qed.
Lemma combine_split_map {A B} (d : list (A * B)) : combine (map fst d) (map snd d) = d.
Proof. induction d as [|[a b] d IH]; cbn; f_equal; auto. Qed.

(** The heap in which the entries of [m] are in another order. *)
Lemma order_heap X h w m ks : reachable X h -> impl h w -> has (w_map w) m -> Permutation (dict_keys (map_at w m)) ks ->
  exists mo xs, nth_error h m = Some (CMap mo)
    /\ let h' := upd (upd h (m_vals mo) (CArr xs)) m (CMap (MObj (m_tbl mo) ks (m_vals mo))) in
       reachable X h' /\ impl h' (set_map w m (reorder (map_at w m) ks)).
Proof.
  intros R P Hm Pk. pose proof (reachable_Inv _ _ R) as I. destruct (has_map _ _ _ P Hm) as (mo & Em & D). set (d := map_at w m) in *.
  pose proof D as (Ek & Ev & Dk & T). exists mo, (map snd (reorder d ks)). split; [exact Em|]. cbn zeta.
  assert (Lm : m < length h) by (apply nth_error_Some; congruence). assert (Lv : m_vals mo < length h) by (apply nth_error_Some; congruence).
  assert (Nmv : m <> m_vals mo) by congruence.
  assert (Kr : map fst (reorder d ks) = ks) by (unfold reorder; rewrite map_map; cbn; apply map_id).
  set (v := m_vals mo) in *. set (H := fun t e => upd (upd h v (CArr (map snd e))) m (CMap (MObj t (map fst e) v))).
  assert (H0 : H (m_tbl mo) d = h).
  { unfold H. rewrite (upd_same h v) by exact Ev. apply upd_same. rewrite Em. unfold dict_keys in Ek. rewrite <- Ek. now destruct mo. }
  destruct (reach_reorder X h m v Nmv Lm Lv (ex_intro _ mo Em) (ex_intro _ _ Ev) (m_tbl mo) d ks) as [R' F']; auto.
  { fold (H (m_tbl mo) d). now rewrite H0. }
  { apply (reachable_tables _ _ R _ _ Em). }
  { intros k o G. pose proof (inv_arr _ I _ _ Ev) as F. rewrite Forall_forall in F. apply dict_get_In in G.
    assert (Io : In o (dict_values d)) by (unfold dict_values; change o with (snd (k, o)); now apply in_map).
    specialize (F _ Io). destruct o as [x|]; [|exact Logic.I]. destruct F as [i Ei]. exists i. cbn. now rewrite Ei. }
  rewrite Kr in R'. split; [exact R'|]. set (h' := upd _ _ _) in *.
  pose proof (view_impl _ (reachable_Inv _ _ R')) as V'. pose proof (view_impl _ I) as V. destruct (impl_unique _ _ _ V P) as (A & B & C & E).
  assert (Eh : forall l, nth_error h' l = if Nat.eqb m l then Some (CMap (MObj (m_tbl mo) ks v)) else if Nat.eqb v l then Some (CArr (map snd (reorder d ks))) else nth_error h l).
  { intros l. unfold h'. rewrite nth_error_upd by (now rewrite upd_length). destruct (Nat.eqb m l); auto. now rewrite nth_error_upd by auto. }
  assert (Eo : forall l, existsb (owns l) h' = existsb (owns l) h).
  { intros l. unfold h'. rewrite (existsb_upd _ _ _ (CMap mo)); [|rewrite nth_error_upd by auto; destruct (Nat.eqb_spec v m); congruence|reflexivity].
    rewrite (existsb_upd _ _ _ (CArr (dict_values d))); auto. }
  apply (impl_same h' (view h')); auto.
  - cbn. rewrite (im_next _ _ P). unfold h'. now rewrite !upd_length.
  - unfold same_world. cbn [set_map w_map w_arr w_val w_var]. split; [|split; [|split]]; intros l; rewrite <- ?A, <- ?B, <- ?C, <- ?E; cbn [view w_map w_arr w_val w_var].
    + unfold put. rewrite Eh, Nat.eqb_sym. destruct (Nat.eqb_spec l m) as [->|Nl].
      * cbn [m_vals m_keys]. rewrite Eh. destruct (Nat.eqb_spec m v); [contradiction|]. rewrite Nat.eqb_refl. rewrite <- Kr at 1. now rewrite combine_split_map.
      * rewrite <- A. cbn [view w_map]. destruct (Nat.eqb_spec v l) as [<-|Nv]; [now rewrite Ev|].
        destruct (nth_error h l) as [[]|] eqn:El; auto. rewrite Eh.
        destruct (Nat.eqb_spec m (m_vals m0)) as [Q|_]. { destruct (inv_map _ I _ _ El) as [e (_ & Q2 & _)]. congruence. }
        destruct (Nat.eqb_spec v (m_vals m0)) as [Q|_]; auto. destruct Nl. apply (inv_own _ I l m m0 mo); auto.
    + rewrite Eh, Eo. destruct (Nat.eqb_spec m l) as [<-|]; [now rewrite Em|]. destruct (Nat.eqb_spec v l) as [<-|]; auto. rewrite Ev.
      assert (O : existsb (owns v) h = true) by (apply owns_iff; exists m, mo; auto). now rewrite O.
    + rewrite Eh. destruct (Nat.eqb_spec m l) as [<-|]; [now rewrite Em|]. destruct (Nat.eqb_spec v l) as [<-|]; auto. now rewrite Ev.
    + rewrite Eh. destruct (Nat.eqb_spec m l) as [<-|]; [now rewrite Em|]. destruct (Nat.eqb_spec v l) as [<-|]; auto. now rewrite Ev.
Qed.

Lemma ok_step_calls s w : ok_step w s -> ok_calls (calls_of [s]) w.
Proof. intros K. destruct s as [c|m t]; [split; [exact K|exact Logic.I]|exact Logic.I]. Qed.

Lemma act_sim X h1 h2 w vs a : reachable X h2 -> impl h2 w -> sim h1 h2 vs -> ok_act w a ->
  exists h1' h2', run_act a h1 = Ok (fst (fst (spec_act a w vs)), h1')
    /\ reachable X h2' /\ impl h2' (snd (fst (spec_act a w vs))) /\ sim h1' h2' (snd (spec_act a w vs)).
Proof.
  intros R P S K. pose proof (reachable_Inv _ _ R) as I. destruct a as [s|m ks].
  - destruct (step_sim h1 h2 w vs s I P S K) as (h1' & h2' & E1 & E2 & _ & _ & P' & S'). exists h1', h2'. cbn [run_act spec_act].
    split; [exact E1|]. split; auto. eapply reachable_calls_impl; [exact R|exact P|exact (ok_step_calls _ _ K)|exact E2].
  - destruct K as [Hm Pk]. destruct (order_heap X h2 w m ks R P Hm Pk) as (mo & xs & Em & R' & P').
    cbn [run_act spec_act fst snd]. pose proof (sim_map S _ _ Em) as Em1. pose proof (s_vals _ _ _ S _ _ Em) as Ev1.
    eexists _, _. split; [|split; [exact R'|split; [exact P'|]]].
    + unfold run_order. rewrite (proj2 (rd_map_iff _ _ _) Em1). unfold bind. rewrite wr_ok by (apply nth_error_Some; congruence). reflexivity.
    + eapply sim_ext; [|rewrite <- (upd_same h1 (m_vals mo) (CArr (vs m)) Ev1); apply (sim_both h1 h2 vs m mo); auto].
      intros l. unfold lput. destruct (Nat.eqb_spec l m); congruence.
Qed.
Lemma acts_sim X ss : forall h1 h2 w vs, reachable X h2 -> impl h2 w -> sim h1 h2 vs -> ok_acts ss w vs ->
  exists h1' h2', run_acts ss h1 = Ok (fst (fst (spec_acts ss w vs)), h1')
    /\ reachable X h2' /\ impl h2' (snd (fst (spec_acts ss w vs))) /\ sim h1' h2' (snd (spec_acts ss w vs)).
Proof.
  induction ss as [|s ss IH]; intros h1 h2 w vs R P S K.
  - exists h1, h2. cbn. auto.
  - cbn [ok_acts] in K. destruct K as [K1 K2]. destruct (act_sim X h1 h2 w vs s R P S K1) as (h1' & h2' & E1 & R' & P' & S').
    cbn [run_acts spec_acts]. destruct (spec_act s w vs) as [[o w1] vs1] eqn:Q. cbn [fst snd] in *.
    destruct (IH h1' h2' w1 vs1 R' P' S' K2) as (h1'' & h2'' & F1 & R2 & P2 & S2).
    destruct (spec_acts ss w1 vs1) as [[os w2] vs2] eqn:Q2. cbn [fst snd] in *.
    exists h1'', h2''. unfold bind. rewrite E1, F1. auto.
Qed.

(** What the readers see in related heaps. *)
Lemma sim_readers X h1 h2 vs : reachable X h2 -> sim h1 h2 vs ->
  (forall m k g, has (w_map (view h2)) m -> run_getter g X h1 m k = run_getter g X h2 m k)
  /\ (forall m, has (w_map (view h2)) m -> map_GetKeys h1 m = map_GetKeys h2 m)
  /\ (forall m f b, has (w_map (view h2)) m -> map_ToJSONString f X h1 m b = map_ToJSONString f X h2 m b)
  /\ (forall a f b, has (w_arr (view h2)) a -> arr_ToJSONString f X h1 a b = arr_ToJSONString f X h2 a b).
Proof.
  intros R2 S2. pose proof (reachable_Inv _ _ R2) as I2. pose proof (view_impl _ I2) as P2.
  assert (MO : forall m, has (w_map (view h2)) m -> exists mo, nth_error h2 m = Some (CMap mo)).
  { intros m Hm. destruct (has_map _ _ _ P2 Hm) as (mo & H & _). eauto. }
  split; [|split; [|split]].
  - intros m k g Hm. destruct (has_map _ _ _ P2 Hm) as (mo & H & D).
    pose proof (read_map S2 _ _ H) as RM. pose proof (proj2 (rd_map_iff _ _ _) H) as RM2.
    assert (G2 : map_GetValue h2 m k = Ok (match tbl_get (m_tbl mo) k with Some o => o | None => None end)).
    { unfold map_GetValue. now rewrite RM2. }
    eapply (run_getter_agree X h2 h1 I2 (sim_agree S2) g m m k); [|exact G2| |].
    + unfold map_HasKey. now rewrite RM.
    + unfold map_GetValue. now rewrite RM, RM2.
    + destruct D as (_ & Hv & _ & T). rewrite T. destruct (dict_get (map_at (view h2) m) k) as [o|] eqn:Dk; [|exact Logic.I].
      pose proof (inv_arr _ I2 _ _ Hv) as F. rewrite Forall_forall in F. apply F. unfold dict_values.
      apply dict_get_In in Dk. change o with (snd (k, o)). now apply in_map.
  - intros m Hm. destruct (MO m Hm) as [mo H]. unfold map_GetKeys. now rewrite (read_map S2 _ _ H).
  - intros m f b Hm. destruct b as [t|]; [|reflexivity]. destruct (MO m Hm) as [mo H].
    pose proof (read_conv X I2 S2 (S f) (IMap m) (ex_intro _ mo H)) as C. cbn in C.
    unfold common_GetType in C. cbn in C. unfold map_ToJSONString. now rewrite C.
  - intros a f b Ha. destruct b as [t|]; [|reflexivity]. destruct (has_arr _ _ _ P2 Ha) as [H N].
    pose proof (read_conv X I2 S2 (S f) (IArr a) (conj (ex_intro _ _ H) N)) as C. cbn in C.
    unfold common_GetType in C. cbn in C. unfold arr_ToJSONString. now rewrite C.
Qed.

Lemma order_program X h ss :
  reachable X h -> ok_acts ss (view h) (lists_of (view h)) ->
  exists h1 h2, run_acts ss h = Ok (fst (fst (spec_acts ss (view h) (lists_of (view h)))), h1)
    /\ reachable X h2 /\ same_world (view h2) (snd (fst (spec_acts ss (view h) (lists_of (view h)))))
    /\ (forall m k g, has (w_map (view h2)) m -> run_getter g X h1 m k = run_getter g X h2 m k)
    /\ (forall m, has (w_map (view h2)) m -> map_GetKeys h1 m = map_GetKeys h2 m)
    /\ (forall m f b, has (w_map (view h2)) m -> map_ToJSONString f X h1 m b = map_ToJSONString f X h2 m b)
    /\ (forall a f b, has (w_arr (view h2)) a -> arr_ToJSONString f X h1 a b = arr_ToJSONString f X h2 a b).
Proof.
  intros R K. pose proof (reachable_Inv _ _ R) as I. pose proof (view_impl _ I) as P.
  destruct (acts_sim X ss h h (view h) (lists_of (view h)) R P (sim_start _ _ I P) K) as (h1 & h2 & E1 & R2 & P2 & S2).
  exists h1, h2. split; [exact E1|]. split; [exact R2|]. split; [apply (impl_unique h2); auto; apply view_impl, (reachable_Inv _ _ R2)|].
  eapply sim_readers; eauto.
Qed.
