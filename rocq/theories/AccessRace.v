(** * When goroutines that use one map race *)
From Coq Require Import Ascii String List NArith ZArith Bool Lia.
From Verif Require Import GoStr StrLemmas Heap Common ArrayModel MapModel SpecDict DictLemmas
  SpecWorld Inv World Reach MapFacts ConcModel SpecConc ConcFacts AccessModel SpecAccess AccessFacts.
Import ListNotations.

Section Race.
  Context {A : Type}.
  Implicit Types a b : act A.

  Lemma trace_step a s v w : access a = Some (v, w) -> trace a s = (v, w) :: trace (fst (step a s)) (snd (step a s)).
  Proof. destruct a; intros H; inversion H; reflexivity. Qed.
  Lemma trace_none a s : access a = None -> trace a s = [].
  Proof. destruct a; try discriminate; reflexivity. Qed.

  Lemma solo_value n : forall a s v, (forall w, In (v, w) (firstn n (trace a s)) -> w = false) -> value v (snd (solo_run n a s)) = value v s.
  Proof.
    induction n as [|n IH]; intros a s v H; [reflexivity|]. cbn [solo_run].
    destruct (access a) as [[v1 w1]|] eqn:E.
    - rewrite (trace_step _ _ _ _ E) in H. cbn [firstn] in H.
      assert (S1 : value v (snd (step a s)) = value v s).
      { apply step_other. intros w Hw. apply H. left. congruence. }
      destruct (step a s) as [a' s']. cbn [fst snd] in *. rewrite IH; auto. intros w Hw. apply H. now right.
    - rewrite step_none by auto. apply IH. rewrite trace_none by auto. destruct n; intros w [].
  Qed.
  Lemma solo_prefix n : forall a s s', (forall v w, In (v, w) (firstn n (trace a s)) -> value v s' = value v s) ->
    fst (solo_run n a s') = fst (solo_run n a s).
  Proof.
    induction n as [|n IH]; intros a s s' H; [reflexivity|]. cbn [solo_run].
    destruct (access a) as [[v1 w1]|] eqn:E.
    - rewrite (trace_step _ _ _ _ E) in H. cbn [firstn] in H.
      destruct (step_same a s' s v1 w1 E (H v1 w1 (or_introl eq_refl))) as [E1 E2].
      assert (Ot : forall v, v <> v1 -> forall s, value v (snd (step a s)) = value v s).
      { intros v N t. apply step_other. intros w Hw. congruence. }
      pose proof (Ot) as Os. destruct (step a s') as [b t'] eqn:St'. destruct (step a s) as [b' t] eqn:St. cbn [fst snd] in *. subst b'.
      apply IH. intros v w Hin. destruct (var_eqb v v1) eqn:Ev.
      + assert (v = v1) by (destruct v, v1; auto; discriminate). subst. exact E2.
      + assert (Nv : v <> v1) by (intros ->; destruct v1; discriminate).
        pose proof (Ot v Nv s') as O1. pose proof (Ot v Nv s) as O2. rewrite St' in O1. rewrite St in O2. cbn [snd] in *.
        rewrite O1, O2. eapply H. right. exact Hin.
    - rewrite !step_none by auto. rewrite !solo_over by auto. reflexivity.
  Qed.

  (** A goroutine for [n] accesses. *)
  Lemma schedule_app ns ms (st : list (act A) * shared) : schedule (ns ++ ms) st = schedule ms (schedule ns st).
  Proof. unfold schedule. apply fold_left_app. Qed.
  Lemma schedule_repeat n i : forall ts s a, nth_error ts i = Some a ->
    schedule (repeat i n) (ts, s) = (upd ts i (fst (solo_run n a s)), snd (solo_run n a s)).
  Proof.
    induction n as [|n IH]; intros ts s a E.
    - cbn. f_equal. symmetry. now apply upd_upd_id.
    - cbn [repeat solo_run]. change (schedule (i :: repeat i n) (ts, s)) with (schedule (repeat i n) (turn_of i (ts, s))).
      unfold turn_of. cbn [fst snd]. rewrite E. destruct (step a s) as [a' s'].
      rewrite (IH _ _ a') by (eapply nth_error_upd_same; eauto). now rewrite upd_twice.
  Qed.

  (** The first pair of accesses that conflict. *)
  Definition hit (l m : list (var * bool)) (i j : nat) : Prop :=
    exists x y, nth_error l i = Some x /\ nth_error m j = Some y /\ conflicting x y = true.
  Lemma hit_dec l m i j : hit l m i j \/ ~ hit l m i j.
  Proof.
    unfold hit. destruct (nth_error l i) as [x|]; [|right; intros (x & y & H & _); discriminate].
    destruct (nth_error m j) as [y|]; [|right; intros (x' & y & _ & H & _); discriminate].
    destruct (conflicting x y) eqn:E; [left; eauto 7|right; intros (x' & y' & H1 & H2 & H3); congruence].
  Qed.
  Lemma bounded_dec (P : nat -> Prop) (D : forall n, P n \/ ~ P n) N : (exists n, n < N /\ P n) \/ (forall n, n < N -> ~ P n).
  Proof.
    induction N as [|N [(n & L & H)|IH]]; [right; lia|left; exists n; split; [lia|auto]|].
    destruct (D N) as [H|H]; [left; exists N; split; [lia|auto]|]. right. intros n L. destruct (Nat.eq_dec n N) as [->|]; auto. apply IH. lia.
  Qed.
  Lemma first_hit l m : forall n i j, i + j <= n -> hit l m i j ->
    exists i j, hit l m i j /\ forall i' j', i' < i -> j' < j -> ~ hit l m i' j'.
  Proof.
    induction n as [|n IH]; intros i j L H.
    - exists i, j. split; auto. lia.
    - destruct (bounded_dec (fun i' => exists j', j' < j /\ hit l m i' j')) with (N := i) as [(i' & Li & j' & Lj & H')|No].
      { intros i'. destruct (bounded_dec (hit l m i') (hit_dec l m i') j) as [?|N]; auto. right. intros (j' & Lj & H'). exact (N j' Lj H'). }
      + apply (IH i' j'); [lia|auto].
      + exists i, j. split; auto. intros i' j' Li Lj H'. apply (No i' Li). eauto.
  Qed.

  Lemma clash_races ts s i j a b : i <> j -> nth_error ts i = Some a -> nth_error ts j = Some b -> clash a b s ->
    exists ns, racing (fst (schedule ns (ts, s))).
  Proof.
    intros N Ea Eb (n & m & x & y & Hx & Hy & C). rewrite access_trace in Hx, Hy.
    destruct (first_hit (trace a s) (trace b s) (n + m) n m) as (n1 & m1 & (x1 & y1 & Hx1 & Hy1 & C1) & Min); [lia|exists x, y; auto|].
    exists (repeat i n1 ++ repeat j m1). rewrite schedule_app, (schedule_repeat n1 i ts s a Ea).
    rewrite (schedule_repeat m1 j _ _ b) by (rewrite nth_error_upd_other; auto). cbn [fst].
    exists i, j. do 4 eexists. split; [exact N|]. split; [rewrite nth_error_upd_other by auto; eapply nth_error_upd_same; eauto|].
    split; [eapply nth_error_upd_same; rewrite nth_error_upd_other; eauto|].
    rewrite access_trace. split; [exact Hx1|]. split; [|exact C1].
    rewrite (solo_prefix m1 b s), access_trace; auto. intros v w Hin. apply solo_value. intros u Hu.
    destruct u; auto. exfalso.
    assert (Fs : forall (l : list (var * bool)) k z, In z (firstn k l) -> exists q, q < k /\ nth_error l q = Some z).
    { induction l as [|z0 l IH]; intros [|k] z I; cbn in I; try destruct I.
      - exists 0. split; [lia|subst; reflexivity].
      - destruct (IH k z H) as (q & Lq & E). exists (S q). split; [lia|exact E]. }
    apply Fs in Hu as (i' & Li & Ei). apply Fs in Hin as (j' & Lj & Ej). apply (Min i' j' Li Lj).
    exists (v, true), (v, w). rewrite conflicting_on. auto.
  Qed.

  Lemma race_iff ts s : (exists ns, racing (fst (schedule ns (ts, s)))) <->
    exists i j a b, i <> j /\ nth_error ts i = Some a /\ nth_error ts j = Some b /\ clash a b s.
  Proof.
    split.
    - intros [ns R].
      set (P := fun i j => exists a b, i <> j /\ nth_error ts i = Some a /\ nth_error ts j = Some b /\ clash a b s).
      assert (D : forall i j, P i j \/ ~ P i j).
      { intros i j. unfold P. destruct (Nat.eq_dec i j); [right; intros (? & ? & ? & _); auto|].
        destruct (nth_error ts i) as [a|]; [|right; intros (? & ? & _ & ? & _); discriminate].
        destruct (nth_error ts j) as [b|]; [|right; intros (? & ? & _ & _ & ? & _); discriminate].
        destruct (clash_dec a b s); [left; eauto 7|right; intros (? & ? & _ & ? & ? & ?); congruence]. }
      destruct (bounded_dec (fun i => exists j, j < length ts /\ P i j)) with (N := length ts) as [(i & _ & j & _ & a & b & H)|No].
      { intros i. destruct (bounded_dec (P i) (D i) (length ts)) as [?|N]; auto. right. intros (j & L & H). exact (N j L H). }
      + exists i, j, a, b. exact H.
      + exfalso. revert R. apply never_racing. intros i j a b N Ea Eb C. apply (No i); [apply nth_error_Some; congruence|].
        exists j. split; [apply nth_error_Some; congruence|]. exists a, b. auto.
    - intros (i & j & a & b & N & Ea & Eb & C). eapply clash_races; eauto.
  Qed.
End Race.

(** ** The accesses of the calls *)
Definition table_reads (n : nat) : list (var * bool) := repeat (VTable, false) n.
Definition shape (d : dict (option loc)) (c : call) : list (var * bool) :=
  match c with
  | CSet k _ => if dict_has d k
      then [(VTable, false); (VKeys, false); (VKeys, false); (VVals, false); (VVals, false); (VVals, true); (VTable, true)]
      else [(VTable, false); (VKeys, false); (VKeys, true); (VVals, false); (VVals, true); (VTable, true)]
  | CRemove k => if dict_has d k
      then [(VTable, false); (VTable, true); (VKeys, false); (VKeys, false); (VKeys, true); (VVals, false); (VVals, false); (VVals, true)]
      else [(VTable, false)]
  | CHas _ => [(VTable, false)]
  | CGet k => if dict_has d k then [(VTable, false); (VTable, false)] else [(VTable, false)]
  | CKeys => [(VKeys, false)]
  | CVals => [(VVals, false)]
  | CEntries => (VKeys, false) :: table_reads (length d)
  end.

Lemma trace_andthen {A B} (a : act A) (f : A -> act B) : forall s,
  trace (andthen a f) s = trace a s ++ match fst (finish_of a s) with Some r => trace (f r) (snd (finish_of a s)) | None => [] end.
Proof. induction a; intros s; cbn [andthen trace finish_of fst snd app]; auto; now rewrite H || rewrite IHa. Qed.
Lemma finish_andthen {A B} (a : act A) (f : A -> act B) : forall s,
  finish_of (andthen a f) s = match fst (finish_of a s) with Some r => finish_of (f r) (snd (finish_of a s)) | None => (None, snd (finish_of a s)) end.
Proof. induction a; intros s; cbn [andthen finish_of fst snd]; auto. Qed.
Lemma trace_done {A} (mk : A -> answer_of_call) (a : act A) s : trace (done mk a) s = trace a s.
Proof. unfold done. rewrite trace_andthen. destruct (fst (finish_of a s)); cbn; apply app_nil_r. Qed.
Lemma finish_done {A} (mk : A -> answer_of_call) (a : act A) s :
  finish_of (done mk a) s = (option_map mk (fst (finish_of a s)), snd (finish_of a s)).
Proof. unfold done. rewrite finish_andthen. destruct (fst (finish_of a s)); reflexivity. Qed.

Lemma loop_trace l : forall acc s, trace (entries_loop l acc) s = table_reads (length l)
  /\ finish_of (entries_loop l acc) s = (Some (acc ++ map (fun k => (k, match tbl_get (c_tbl s) k with Some o => o | None => None end)) l), s).
Proof.
  induction l as [|k l IH]; intros acc s; cbn [entries_loop trace finish_of length map].
  - split; [reflexivity|now rewrite app_nil_r].
  - destruct (IH (acc ++ [(k, match tbl_get (c_tbl s) k with Some o => o | None => None end)]) s) as [-> ->].
    split; [reflexivity|now rewrite <- app_assoc].
Qed.

Lemma dict_entries (d : dict (option loc)) : dict_ok d ->
  map (fun k => (k, match dict_get d k with Some o => o | None => None end)) (dict_keys d) = d.
Proof.
  unfold dict_ok, dict_keys. induction d as [|[k v] d IH]; intros N; [reflexivity|]. cbn [map fst dict_get] in *.
  rewrite str_eqb_refl. f_equal. inversion N as [|? ? N1 N2]; subst. rewrite <- (IH N2) at 2. apply map_ext_in. intros k' I.
  destruct (str_eqb_spec k k'); [subst; contradiction|reflexivity].
Qed.

Lemma found_dict s d k : holds_dict s d -> found (c_tbl s) k = dict_has d k.
Proof. intros (_ & _ & _ & T). unfold found, dict_has. now rewrite T. Qed.

(** What each call does alone. *)
Lemma call_ok s d c : holds_dict s d ->
  trace (do_call c) s = shape d c
  /\ fst (finish_of (do_call c) s) = Some (reply_to d c)
  /\ holds_dict (snd (finish_of (do_call c) s)) (after d c).
Proof.
  intros H. pose proof H as (K & Vs & D & T). pose proof (fun k => found_dict s d k H) as Fd.
  assert (Tb : forall k v k2, tbl_get (tbl_put (c_tbl s) k v) k2 = dict_get (dict_set d k v) k2).
  { intros k v k2. rewrite tbl_get_put, dict_get_set. destruct (str_eqb _ _); auto. }
  assert (Len : length (c_vals s) = length d) by (rewrite Vs; unfold dict_values; apply map_length).
  assert (Lk : length (c_keys s) = length d) by (rewrite K; unfold dict_keys; apply map_length).
  destruct c as [k v|k|k|k| | |]; cbn [do_call]; rewrite trace_done, finish_done; cbn [fst snd shape reply_to after].
  - unfold set_op. cbn [trace finish_of]. rewrite Fd. destruct (dict_has d k) eqn:G.
    + cbn [trace finish_of]. destruct (c_keys s) as [|k0 ks] eqn:Ck; [destruct d; discriminate|]. rewrite <- Ck in *.
      unfold set_old. cbn [trace finish_of]. pose proof (find_index_dict d k) as FI. change (map fst d) with (dict_keys d) in FI.
      rewrite K. destruct (find_index k (dict_keys d)) as [i|]; [|congruence]. destruct FI as (_ & Li & Sv & _ & _).
      cbn [trace finish_of]. rewrite Len. destruct (Nat.ltb_spec i (length d)); [|lia]. cbn [trace finish_of].
      rewrite Len. destruct (Nat.ltb_spec i (length d)); [|lia]. unfold set_table. cbn. split; auto. split; auto.
      split; [|split; [|split]]; cbn [c_tbl c_keys c_vals]; auto.
      * rewrite K. unfold dict_keys. rewrite dict_keys_set. now rewrite G.
      * rewrite Vs. unfold dict_values. now rewrite Sv.
      * now apply dict_ok_set.
    + unfold set_new, set_table. cbn. split; auto. split; auto. split; [|split; [|split]]; cbn [c_tbl c_keys c_vals]; auto.
      * rewrite K. unfold dict_keys. rewrite dict_keys_set. now rewrite G.
      * rewrite Vs. unfold dict_values. rewrite dict_set_notin by (unfold dict_has in G; destruct (dict_get d k); congruence). now rewrite map_app.
      * now apply dict_ok_set.
  - unfold remove_op. cbn [trace finish_of]. rewrite Fd. destruct (dict_has d k) eqn:G.
    + cbn [trace finish_of c_keys]. pose proof (find_index_dict d k) as FI. change (map fst d) with (dict_keys d) in FI.
      rewrite K. destruct (find_index k (dict_keys d)) as [i|]; [|congruence]. destruct FI as (_ & Li & _ & Rk & Rv).
      cbn [trace finish_of c_keys]. rewrite <- K, Lk. destruct (Nat.ltb_spec i (length d)); [|lia]. unfold remove_val. cbn [trace finish_of c_vals].
      rewrite Len. destruct (Nat.ltb_spec i (length d)); [|lia]. cbn [trace finish_of c_vals].
      rewrite Len. destruct (Nat.ltb_spec i (length d)); [|lia]. cbn. split; auto. split; auto.
      split; [|split; [|split]]; cbn [c_tbl c_keys c_vals].
      * rewrite K. unfold dict_keys. now rewrite Rk.
      * rewrite Vs. unfold dict_values. now rewrite Rv.
      * now apply dict_ok_remove.
      * intros k2. rewrite tbl_get_del, dict_get_remove by auto. destruct (str_eqb k k2); auto.
    + cbn. split; auto. split; auto. rewrite dict_remove_notin; auto. unfold dict_has in G. destruct (dict_get d k); congruence.
  - unfold has_op. cbn. rewrite Fd. auto.
  - unfold get_op. cbn [trace finish_of]. rewrite Fd. destruct (dict_has d k) eqn:G; cbn [trace finish_of fst snd option_map].
    + rewrite T. auto.
    + split; auto. split; auto. unfold dict_has in G. destruct (dict_get d k); [discriminate|reflexivity].
  - unfold keys_op. cbn. rewrite K. auto.
  - unfold vals_op. cbn. rewrite Vs. auto.
  - unfold entries_op. cbn [trace finish_of]. destruct (loop_trace (c_keys s) [] s) as [-> ->]. rewrite Lk.
    cbn [fst snd option_map app]. split; auto. split; auto. do 2 f_equal. rewrite K.
    rewrite (map_ext _ (fun k => (k, match dict_get d k with Some o => o | None => None end))) by (intros k; now rewrite T).
    now apply dict_entries.
Qed.

(** ** Which calls race *)
Definition short (d : dict (option loc)) (c : call) : list (var * bool) :=
  match c with CEntries => match d with [] => [(VKeys, false)] | _ => [(VKeys, false); (VTable, false)] end | _ => shape d c end.
Lemma shape_short d c x : In x (shape d c) <-> In x (short d c).
Proof.
  destruct c; try reflexivity. cbn [shape short]. destruct d as [|e d]; [reflexivity|]. cbn [length table_reads repeat In].
  split; [|tauto]. intros [H|[H|H]]; auto. apply repeat_spec in H. auto.
Qed.
Lemma short_disturb d c c' : existsb (fun x => existsb (conflicting x) (short d c')) (short d c) = disturb d c c'.
Proof.
  destruct c as [k v|k|k|k| | |], c' as [k' v'|k'|k'|k'| | |]; unfold disturb; cbn [short shape writes reads];
    try destruct (dict_has d k); try destruct (dict_has d k'); try destruct d; reflexivity.
Qed.
Lemma clash_disturb s d c c' : holds_dict s d -> (clash (do_call c) (do_call c') s <-> disturb d c c' = true).
Proof.
  intros H. rewrite clash_trace. destruct (call_ok s d c H) as (-> & _). destruct (call_ok s d c' H) as (-> & _).
  rewrite <- short_disturb. rewrite existsb_exists. split.
  - intros (x & y & Hx & Hy & C). exists x. rewrite <- shape_short. split; auto. apply existsb_exists. exists y. rewrite <- shape_short. auto.
  - intros (x & Hx & E). apply existsb_exists in E as (y & Hy & C). exists x, y. rewrite !shape_short. auto.
Qed.
