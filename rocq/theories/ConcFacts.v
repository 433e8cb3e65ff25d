(** * Facts about concurrent setters *)
From Coq Require Import Ascii String List NArith ZArith Bool Lia Permutation.
From Verif Require Import GoStr StrLemmas Heap ArrayModel MapModel SpecDict DictLemmas
  SpecWorld Inv World Reach Common MapFacts ConcModel SpecConc.
Import ListNotations.

Definition solo (k : str) (v : option loc) (s : shared) : pc * shared :=
  Nat.iter 6 (fun q => conc_step k v (fst q) (snd q)) (CStart, s).

Lemma solo_ok k v s d : holds_dict s d -> fst (solo k v s) = CDone /\ holds_dict (snd (solo k v s)) (dict_set d k v).
Proof.
  intros (K & Vs & D & T). unfold solo, Nat.iter. cbn [nat_rect conc_step fst snd].
  assert (Tb : forall k2, tbl_get (tbl_put (c_tbl s) k v) k2 = dict_get (dict_set d k v) k2).
  { intros k2. rewrite tbl_get_put, dict_get_set. destruct (str_eqb _ _); auto. }
  rewrite T. destruct (dict_get d k) as [o|] eqn:G; cbn [negb orb].
  - destruct (c_keys s) as [|k0 ks] eqn:Ck.
    { exfalso. destruct d; [discriminate|discriminate K]. }
    rewrite <- Ck in K. cbn [conc_step fst snd]. destruct (find_index k (c_keys s)) as [i|] eqn:F.
    + cbn [conc_step fst snd]. split; auto. split; [|split; [|split]]; cbn [c_tbl c_keys c_vals]; auto.
      * rewrite K. unfold dict_keys. rewrite dict_keys_set. unfold dict_has. now rewrite G.
      * rewrite Vs. rewrite K in F. pose proof (find_index_dict d k) as FD. unfold dict_keys in F.
        rewrite F in FD. destruct FD as (_ & _ & FD & _). unfold dict_values. now rewrite FD.
      * now apply dict_ok_set.
    + exfalso. apply find_index_None in F. apply F. rewrite K. apply dict_has_keys. unfold dict_has. now rewrite G.
  - cbn [conc_step fst snd]. split; auto. split; [|split; [|split]]; cbn [c_tbl c_keys c_vals]; auto.
    + rewrite K. unfold dict_keys. rewrite dict_keys_set. unfold dict_has. now rewrite G.
    + rewrite Vs. unfold dict_values. rewrite dict_set_notin by auto. now rewrite map_app.
    + now apply dict_ok_set.
Qed.

Lemma upd_twice {A} (l : list A) n x y : upd (upd l n x) n y = upd l n y.
Proof. revert n. induction l as [|z l IH]; intros [|n]; cbn; auto. now rewrite IH. Qed.

Lemma sched_one n ts s k v p : nth_error ts n = Some (Thread k v p) ->
  sched_step n (ts, s) = (upd ts n (Thread k v (fst (conc_step k v p s))), snd (conc_step k v p s)).
Proof. intros H. unfold sched_step. cbn [fst snd]. rewrite H. cbn. now destruct (conc_step k v p s). Qed.

Lemma nth_error_upd_same {A} (l : list A) n x y : nth_error l n = Some x -> nth_error (upd l n y) n = Some y.
Proof. revert n. induction l as [|z l IH]; intros [|n] H; cbn in *; try discriminate; auto. Qed.

Lemma sched_times j : forall n ts s k v p, nth_error ts n = Some (Thread k v p) ->
  run_sched (repeat n j) (ts, s)
  = let q := Nat.iter j (fun q => conc_step k v (fst q) (snd q)) (p, s) in (upd ts n (Thread k v (fst q)), snd q).
Proof.
  induction j as [|j IH]; intros n ts s k v p H.
  - cbn. f_equal. symmetry. apply upd_upd_id, H.
  - cbn [repeat]. unfold run_sched. cbn [fold_left]. rewrite (sched_one _ _ _ _ _ _ H).
    fold (run_sched (repeat n j)).
    change (fold_left (fun st n => sched_step n st) (repeat n j)) with (run_sched (repeat n j)).
    rewrite (IH n _ _ k v (fst (conc_step k v p s))) by (eapply nth_error_upd_same; eauto).
    cbn zeta. rewrite upd_twice. rewrite <- surjective_pairing.
    
    assert (R : forall m (f : pc * shared -> pc * shared) q, Nat.iter m f (f q) = f (Nat.iter m f q)).
    { intros m f q. induction m as [|m IHm]; cbn; auto. unfold Nat.iter in IHm. now rewrite IHm. }
    change (conc_step k v p s) with ((fun q => conc_step k v (fst q) (snd q)) (p, s)). rewrite R. reflexivity.
Qed.

Lemma sched_solo n ts s k v : nth_error ts n = Some (Thread k v CStart) ->
  run_sched (repeat n 6) (ts, s) = (upd ts n (Thread k v (fst (solo k v s))), snd (solo k v s)).
Proof. intros H. unfold solo. rewrite (sched_times 6 n ts s k v CStart H). cbn zeta. reflexivity. Qed.

(** ** Taking turns *)
Lemma nth_error_upd_other {A} (l : list A) n m x : n <> m -> nth_error (upd l n x) m = nth_error l m.
Proof. revert n m. induction l as [|z l IH]; intros [|n] [|m] H; cbn; auto; try congruence. Qed.

Definition set_nth (kvs : list (str * option loc)) (d : dict (option loc)) (n : nat) : dict (option loc) :=
  match nth_error kvs n with Some (k, v) => dict_set d k v | None => d end.

Lemma run_sched_app a b st : run_sched (a ++ b) st = run_sched b (run_sched a st).
Proof. unfold run_sched. apply fold_left_app. Qed.

Lemma turns_run kvs : forall order ts s d,
  NoDup order -> length ts = length kvs ->
  (forall n, In n order -> exists kv, nth_error kvs n = Some kv /\ nth_error ts n = Some (spawn kv)) ->
  holds_dict s d ->
  let st := run_sched (turns order) (ts, s) in
  holds_dict (snd st) (fold_left (set_nth kvs) order d)
  /\ length (fst st) = length kvs
  /\ (forall n, In n order -> exists t, nth_error (fst st) n = Some t /\ th_pc t = CDone)
  /\ (forall n, ~ In n order -> nth_error (fst st) n = nth_error ts n).
Proof.
  induction order as [|n order IH]; intros ts s d N L A H; cbn zeta.
  - cbn. split; [exact H|]. split; [exact L|]. split; [intros ? []|auto].
  - inversion N as [|? ? N1 N2]; subst. unfold turns. cbn [flat_map]. fold (turns order). rewrite run_sched_app.
    destruct (A n (or_introl eq_refl)) as ([k v] & En & Et). unfold spawn in Et. cbn [fst snd] in Et.
    rewrite (sched_solo n ts s k v Et).
    destruct (solo_ok k v s d H) as [P Hd]. rewrite P.
    destruct (IH (upd ts n (Thread k v CDone)) (snd (solo k v s)) (dict_set d k v)) as (R1 & R2 & R3 & R4); auto.
    + now rewrite upd_length.
    + intros m Im. destruct (A m (or_intror Im)) as (kv & E1 & E2). exists kv. split; auto.
      rewrite nth_error_upd_other; auto. congruence.
    + cbn [fold_left]. unfold set_nth at 2. rewrite En. split; [exact R1|]. split; [exact R2|]. split.
      * intros m [<-|Im]; [|now apply R3]. exists (Thread k v CDone). split; [|reflexivity].
        rewrite R4 by auto. eapply nth_error_upd_same; eauto.
      * intros m Nm. rewrite R4 by (intros ?; apply Nm; now right). apply nth_error_upd_other.
        intros ->. apply Nm. now left.
Qed.

Lemma turns_ok kvs order s d :
  holds_dict s d -> Permutation order (seq 0 (length kvs)) ->
  let st := run_sched (turns order) (map spawn kvs, s) in
  finished (fst st)
  /\ holds_dict (snd st) (fold_left (fun d n => match nth_error kvs n with Some (k, v) => dict_set d k v | None => d end) order d).
Proof.
  intros H P. cbn zeta.
  assert (In_o : forall n, In n order <-> n < length kvs).
  { intros n. split; intros I.
    - apply (Permutation_in _ P) in I. apply in_seq in I. lia.
    - apply (Permutation_in _ (Permutation_sym P)). apply in_seq. lia. }
  destruct (turns_run kvs order (map spawn kvs) s d) as (R1 & R2 & R3 & _); auto.
  - apply (Permutation_NoDup (Permutation_sym P)). apply seq_NoDup.
  - apply map_length.
  - intros n I. apply In_o in I. destruct (nth_error kvs n) as [kv|] eqn:E.
    + exists kv. split; auto. now apply map_nth_error.
    + apply nth_error_None in E. lia.
  - split; [|exact R1]. apply Forall_forall. intros t I. apply In_nth_error in I as [n E].
    assert (n < length kvs).
    { rewrite <- R2. apply nth_error_Some. congruence. }
    destruct (R3 n) as (t' & E' & D); [now apply In_o|]. congruence.
Qed.

(** ** Races *)
Lemma to_table k v s : exists j s', Nat.iter j (fun q => conc_step k v (fst q) (snd q)) (CStart, s) = (CWriteTbl, s')
  /\ c_tbl s' = c_tbl s.
Proof.
  destruct (fst (conc_step k v CStart s)) eqn:E; cbn in E;
    try (destruct (_ || _); discriminate).
  - exists 5. cbn. destruct (_ || _); [|discriminate]. cbn. eauto.
  - destruct (find_index k (c_keys s)) as [i|] eqn:F.
    + exists 3. cbn. destruct (_ || _); [discriminate|]. cbn. rewrite F. cbn. eauto.
    + exists 2. cbn. destruct (_ || _); [discriminate|]. cbn. rewrite F. eauto.
Qed.

Lemma always_race s kv1 kv2 : exists ns, race (fst (run_sched ns (map spawn [kv1; kv2], s))).
Proof.
  destruct kv1 as [k1 v1], kv2 as [k2 v2].
  destruct (to_table k1 v1 s) as (j1 & s1 & E1 & _). destruct (to_table k2 v2 s1) as (j2 & s2 & E2 & _).
  exists (repeat 0 j1 ++ repeat 1 j2). rewrite run_sched_app. unfold map, spawn; cbn [fst snd].
  erewrite (sched_times j1 0 _ s k1 v1 CStart) by reflexivity; rewrite E1. cbn zeta. cbn [fst snd upd].
  erewrite (sched_times j2 1 _ s1 k2 v2 CStart) by reflexivity; rewrite E2. cbn [fst snd upd].
  exists 0, 1. do 2 eexists. repeat split; try reflexivity. discriminate.
Qed.

Lemma absent_start k (s : shared) d : holds_dict s d -> dict_get d k = None ->
  tbl_get (c_tbl s) k = None.
Proof. intros (_ & _ & _ & T) G. now rewrite T. Qed.

Lemma run_cons n ns st : run_sched (n :: ns) st = run_sched ns (sched_step n st).
Proof. reflexivity. Qed.

Ltac one_step := rewrite run_cons; erewrite sched_one by reflexivity;
  cbn [conc_step fst snd upd c_tbl c_keys c_vals].

Lemma duplicate_key s d k v1 v2 : holds_dict s d -> dict_has d k = false ->
  exists ns, let st := run_sched ns (map spawn [(k, v1); (k, v2)], s) in
    finished (fst st) /\ c_keys (snd st) = dict_keys d ++ [k; k].
Proof.
  intros H G. assert (T : tbl_get (c_tbl s) k = None).
  { eapply absent_start; eauto. unfold dict_has in G. destruct (dict_get d k); congruence. }
  exists [0; 1; 0; 0; 0; 0; 0; 1; 1; 1; 1; 1]. unfold map, spawn; cbn [fst snd].
  do 2 (one_step; rewrite T; cbn [negb orb]). do 10 one_step. cbn [run_sched fold_left fst snd c_keys].
  split; [repeat constructor|]. destruct H as (-> & _). now rewrite <- app_assoc.
Qed.

Lemma lost_key s d k1 k2 v1 v2 : holds_dict s d -> dict_has d k1 = false -> dict_has d k2 = false -> k1 <> k2 ->
  exists ns, let st := run_sched ns (map spawn [(k1, v1); (k2, v2)], s) in
    finished (fst st) /\ c_keys (snd st) = dict_keys d ++ [k1]
    /\ tbl_get (c_tbl (snd st)) k2 = Some v2 /\ length (c_vals (snd st)) = S (length (c_keys (snd st))).
Proof.
  intros H G1 G2 N. assert (T1 : tbl_get (c_tbl s) k1 = None).
  { eapply absent_start; eauto. unfold dict_has in G1. destruct (dict_get d k1); congruence. }
  assert (T2 : tbl_get (c_tbl s) k2 = None).
  { eapply absent_start; eauto. unfold dict_has in G2. destruct (dict_get d k2); congruence. }
  exists [0; 0; 1; 1; 1; 1; 1; 1; 0; 0; 0; 0]. unfold map, spawn; cbn [fst snd].
  one_step. rewrite T1. cbn [negb orb]. do 2 one_step. rewrite T2. cbn [negb orb]. do 9 one_step.
  cbn [run_sched fold_left fst snd c_keys c_vals c_tbl].
  split; [repeat constructor|]. destruct H as (K & Vs & _). split; [now rewrite K|]. split.
  - rewrite !tbl_get_put, str_eqb_refl. destruct (str_eqb_spec k1 k2); [congruence|reflexivity].
  - rewrite K, Vs, !app_length. unfold dict_keys, dict_values. rewrite !map_length. cbn. lia.
Qed.

(** ** The model of one goroutine and the model of the setter *)
Lemma setter_solo h m mo d k o : nth_error h m = Some (CMap mo) -> map_holds h mo d ->
  exists h', map_setInternal m k o h = Ok (tt, h') /\ shared_of h' m = Some (snd (solo k o (Shared (m_tbl mo) (m_keys mo) (dict_values d)))).
Proof.
  intros Hm (Ek & Ha & Dk & T).
  pose proof (nth_error_lt _ _ _ Hm) as Lm. pose proof (nth_error_lt _ _ _ Ha) as La.
  assert (Nm : m_vals mo <> m) by congruence.
  assert (W : forall vs tb ks, shared_of (upd (upd h (m_vals mo) (CArr vs)) m (CMap (MObj tb ks (m_vals mo)))) m
                          = Some (Shared tb ks vs)).
  { intros vs tb ks. unfold shared_of. rewrite nth_error_upd by (now rewrite upd_length). rewrite Nat.eqb_refl.
    cbn [m_vals m_tbl m_keys]. rewrite nth_error_upd by (now rewrite upd_length).
    destruct (Nat.eqb_spec m (m_vals mo)); [congruence|]. rewrite nth_error_upd by auto. now rewrite Nat.eqb_refl. }
  unfold map_setInternal. rewrite (proj2 (rd_map_iff _ _ _) Hm).
  unfold has_key. unfold solo, Nat.iter. cbn [nat_rect conc_step fst snd c_tbl c_keys c_vals].
  destruct (negb _ || _) eqn:B.
  - cbn [conc_step fst snd c_tbl c_keys c_vals].
    unfold bind. rewrite (arr_AppendValue_eq _ _ _ _ Ha). rewrite wr_ok by (now rewrite upd_length).
    eexists. split; [reflexivity|]. apply W.
  - cbn [conc_step fst snd c_tbl c_keys c_vals]. destruct (find_index k (m_keys mo)) as [n|] eqn:F.
    + cbn [conc_step fst snd c_tbl c_keys c_vals]. unfold bind, arr_SetValueAtIndex.
      rewrite (proj2 (rd_arr_iff _ _ _) Ha).
      assert (Ln : n < length (dict_values d)).
      { unfold dict_values. rewrite map_length. rewrite Ek in F. unfold dict_keys in F.
        pose proof (find_index_dict d k) as FI. rewrite F in FI. destruct FI as (_ & Ln & _). exact Ln. }
      destruct (Z.ltb_spec (Z.of_nat n) 0); [lia|].
      destruct (Z.ltb_spec (Z.of_nat (length (dict_values d)) - 1) (Z.of_nat n)); [lia|].
      cbn [bind]. unfold bind. rewrite wr_ok by auto. unfold ret. rewrite Nat2Z.id.
      rewrite wr_ok by (now rewrite upd_length). eexists. split; [reflexivity|]. apply W.
    + exfalso. apply find_index_None in F. apply F. rewrite Ek. apply dict_has_keys. apply orb_false_iff in B as [B _].
      apply negb_false_iff in B. rewrite T in B. unfold dict_has. exact B.
Qed.

Lemma alone_ok X h m d k o :
  reachable X h -> w_map (view h) m = Some d ->
  exists s s' h',
    shared_of h m = Some s /\ holds_dict s d
    /\ map_SetValue m k o h = Ok (tt, h')
    /\ run_sched (repeat 0 6) ([spawn (k, o)], s) = ([Thread k o CDone], s')
    /\ shared_of h' m = Some s' /\ holds_dict s' (dict_set d k o).
Proof.
  intros R V. pose proof (reachable_Inv _ _ R) as I. pose proof (view_impl _ I) as P.
  apply (im_map _ _ P) in V as (mo & Hm & H).
  destruct (setter_solo h m mo d k o Hm H) as (h' & E & S'). pose proof H as (Ek & Ha & Dk & T).
  assert (Hd : holds_dict (Shared (m_tbl mo) (m_keys mo) (dict_values d)) d) by (split; [|split; [|split]]; auto).
  destruct (solo_ok k o _ d Hd) as [Pc Hd'].
  do 3 eexists. split; [unfold shared_of; rewrite Hm, Ha; reflexivity|]. split; [exact Hd|]. split; [exact E|].
  split; [rewrite (sched_solo 0 [spawn (k, o)] (Shared (m_tbl mo) (m_keys mo) (dict_values d)) k o eq_refl), Pc; reflexivity|]. split; [exact S'|exact Hd'].
Qed.
