(** * When goroutines that use one array race *)
From Coq Require Import Ascii String List NArith ZArith Bool Lia.
From Verif Require Import GoStr Heap Inv ConcFacts ArrayModel KeysSlice CellModel SpecCell CellFacts.
Import ListNotations.

Section Race.
  Context {A : Type}.
  Implicit Types a b : act A.

  Lemma trace_step a s v w : access a = Some (v, w) -> trace a s = (v, w) :: trace (fst (step a s)) (snd (step a s)).
  Proof. destruct a; intros H; inversion H; reflexivity. Qed.
  Lemma trace_none a s : access a = None -> trace a s = [].
  Proof. destruct a; try discriminate; reflexivity. Qed.

  Lemma solo_value n : forall a s v, (forall w, In (v, w) (firstn n (trace a s)) -> w = false) -> value v (snd (solo_run n a s)) = value v s.
  Proof.
    induction n as [|n IH]; intros a s v H; [reflexivity|]. cbn [solo_run].
    destruct (access a) as [[v1 w1]|] eqn:E.
    - rewrite (trace_step _ _ _ _ E) in H. cbn [firstn] in H.
      assert (S1 : value v (snd (step a s)) = value v s).
      { apply step_other. intros w Hw. apply H. left. congruence. }
      destruct (step a s) as [a' s']. cbn [fst snd] in *. rewrite IH; auto. intros w Hw. apply H. now right.
    - rewrite step_none by auto. apply IH. rewrite trace_none by auto. destruct n; intros w [].
  Qed.
  Lemma solo_prefix n : forall a s s', (forall v w, In (v, w) (firstn n (trace a s)) -> value v s' = value v s) ->
    fst (solo_run n a s') = fst (solo_run n a s).
  Proof.
    induction n as [|n IH]; intros a s s' H; [reflexivity|]. cbn [solo_run].
    destruct (access a) as [[v1 w1]|] eqn:E.
    - rewrite (trace_step _ _ _ _ E) in H. cbn [firstn] in H.
      destruct (step_same a s' s v1 w1 E (H v1 w1 (or_introl eq_refl))) as [E1 E2].
      assert (Ot : forall v, v <> v1 -> forall s, value v (snd (step a s)) = value v s).
      { intros v N t. apply step_other. intros w Hw. congruence. }
      pose proof (Ot) as Os. destruct (step a s') as [b t'] eqn:St'. destruct (step a s) as [b' t] eqn:St. cbn [fst snd] in *. subst b'.
      apply IH. intros v w Hin. destruct (var_eqb_spec v v1) as [->|Nv].
      + exact E2.
      + pose proof (Ot v Nv s') as O1. pose proof (Ot v Nv s) as O2. rewrite St' in O1. rewrite St in O2. cbn [snd] in *.
        rewrite O1, O2. eapply H. right. exact Hin.
    - rewrite !step_none by auto. rewrite !solo_over by auto. reflexivity.
  Qed.

  (** A goroutine for [n] accesses. *)
  Lemma schedule_app ns ms (st : list (act A) * store) : schedule (ns ++ ms) st = schedule ms (schedule ns st).
  Proof. unfold schedule. apply fold_left_app. Qed.
  Lemma schedule_repeat n i : forall ts s a, nth_error ts i = Some a ->
    schedule (repeat i n) (ts, s) = (upd ts i (fst (solo_run n a s)), snd (solo_run n a s)).
  Proof.
    induction n as [|n IH]; intros ts s a E.
    - cbn. f_equal. symmetry. now apply upd_upd_id.
    - cbn [repeat solo_run]. change (schedule (i :: repeat i n) (ts, s)) with (schedule (repeat i n) (turn_of i (ts, s))).
      unfold turn_of. cbn [fst snd]. rewrite E. destruct (step a s) as [a' s'].
      rewrite (IH _ _ a') by (eapply nth_error_upd_same; eauto). now rewrite upd_twice.
  Qed.

  (** The first pair of accesses that conflict. *)
  Definition hit (l m : list (var * bool)) (i j : nat) : Prop :=
    exists x y, nth_error l i = Some x /\ nth_error m j = Some y /\ conflicting x y = true.
  Lemma hit_dec l m i j : hit l m i j \/ ~ hit l m i j.
  Proof.
    unfold hit. destruct (nth_error l i) as [x|]; [|right; intros (x & y & H & _); discriminate].
    destruct (nth_error m j) as [y|]; [|right; intros (x' & y & _ & H & _); discriminate].
    destruct (conflicting x y) eqn:E; [left; eauto 7|right; intros (x' & y' & H1 & H2 & H3); congruence].
  Qed.
  Lemma bounded_dec (P : nat -> Prop) (D : forall n, P n \/ ~ P n) N : (exists n, n < N /\ P n) \/ (forall n, n < N -> ~ P n).
  Proof.
    induction N as [|N [(n & L & H)|IH]]; [right; lia|left; exists n; split; [lia|auto]|].
    destruct (D N) as [H|H]; [left; exists N; split; [lia|auto]|]. right. intros n L. destruct (Nat.eq_dec n N) as [->|]; auto. apply IH. lia.
  Qed.
  Lemma first_hit l m : forall n i j, i + j <= n -> hit l m i j ->
    exists i j, hit l m i j /\ forall i' j', i' < i -> j' < j -> ~ hit l m i' j'.
  Proof.
    induction n as [|n IH]; intros i j L H.
    - exists i, j. split; auto. lia.
    - destruct (bounded_dec (fun i' => exists j', j' < j /\ hit l m i' j')) with (N := i) as [(i' & Li & j' & Lj & H')|No].
      { intros i'. destruct (bounded_dec (hit l m i') (hit_dec l m i') j) as [?|N]; auto. right. intros (j' & Lj & H'). exact (N j' Lj H'). }
      + apply (IH i' j'); [lia|auto].
      + exists i, j. split; auto. intros i' j' Li Lj H'. apply (No i' Li). eauto.
  Qed.

  Lemma clash_races ts s i j a b : i <> j -> nth_error ts i = Some a -> nth_error ts j = Some b -> clash a b s ->
    exists ns, racing (fst (schedule ns (ts, s))).
  Proof.
    intros N Ea Eb (n & m & x & y & Hx & Hy & C). rewrite access_trace in Hx, Hy.
    destruct (first_hit (trace a s) (trace b s) (n + m) n m) as (n1 & m1 & (x1 & y1 & Hx1 & Hy1 & C1) & Min); [lia|exists x, y; auto|].
    exists (repeat i n1 ++ repeat j m1). rewrite schedule_app, (schedule_repeat n1 i ts s a Ea).
    rewrite (schedule_repeat m1 j _ _ b) by (rewrite nth_error_upd_other; auto). cbn [fst].
    exists i, j. do 4 eexists. split; [exact N|]. split; [rewrite nth_error_upd_other by auto; eapply nth_error_upd_same; eauto|].
    split; [eapply nth_error_upd_same; rewrite nth_error_upd_other; eauto|].
    rewrite access_trace. split; [exact Hx1|]. split; [|exact C1].
    rewrite (solo_prefix m1 b s), access_trace; auto. intros v w Hin. apply solo_value. intros u Hu.
    destruct u; auto. exfalso.
    assert (Fs : forall (l : list (var * bool)) k z, In z (firstn k l) -> exists q, q < k /\ nth_error l q = Some z).
    { induction l as [|z0 l IH]; intros [|k] z I; cbn in I; try destruct I.
      - exists 0. split; [lia|subst; reflexivity].
      - destruct (IH k z H) as (q & Lq & E). exists (S q). split; [lia|exact E]. }
    apply Fs in Hu as (i' & Li & Ei). apply Fs in Hin as (j' & Lj & Ej). apply (Min i' j' Li Lj).
    exists (v, true), (v, w). rewrite conflicting_on. auto.
  Qed.

  Lemma race_iff ts s : (exists ns, racing (fst (schedule ns (ts, s)))) <->
    exists i j a b, i <> j /\ nth_error ts i = Some a /\ nth_error ts j = Some b /\ clash a b s.
  Proof.
    split.
    - intros [ns R].
      set (P := fun i j => exists a b, i <> j /\ nth_error ts i = Some a /\ nth_error ts j = Some b /\ clash a b s).
      assert (D : forall i j, P i j \/ ~ P i j).
      { intros i j. unfold P. destruct (Nat.eq_dec i j); [right; intros (? & ? & ? & _); auto|].
        destruct (nth_error ts i) as [a|]; [|right; intros (? & ? & _ & ? & _); discriminate].
        destruct (nth_error ts j) as [b|]; [|right; intros (? & ? & _ & _ & ? & _); discriminate].
        destruct (clash_dec a b s); [left; eauto 7|right; intros (? & ? & _ & ? & ? & ?); congruence]. }
      destruct (bounded_dec (fun i => exists j, j < length ts /\ P i j)) with (N := length ts) as [(i & _ & j & _ & a & b & H)|No].
      { intros i. destruct (bounded_dec (P i) (D i) (length ts)) as [?|N]; auto. right. intros (j & L & H). exact (N j L H). }
      + exists i, j, a, b. exact H.
      + exfalso. revert R. apply never_racing. intros i j a b N Ea Eb C. apply (No i); [apply nth_error_Some; congruence|].
        exists j. split; [apply nth_error_Some; congruence|]. exists a, b. auto.
    - intros (i & j & a & b & N & Ea & Eb & C). eapply clash_races; eauto.
  Qed.
End Race.

Lemma trace_andthen {A B} (a : act A) (f : A -> act B) : forall s,
  trace (andthen a f) s = trace a s ++ match fst (finish_of a s) with Some r => trace (f r) (snd (finish_of a s)) | None => [] end.
Proof. induction a; intros st; cbn [andthen trace finish_of fst snd app]; auto; now rewrite H || rewrite IHa. Qed.
Lemma finish_andthen {A B} (a : act A) (f : A -> act B) : forall s,
  finish_of (andthen a f) s = match fst (finish_of a s) with Some r => finish_of (f r) (snd (finish_of a s)) | None => (None, snd (finish_of a s)) end.
Proof. induction a; intros st; cbn [andthen finish_of fst snd]; auto. Qed.
Section Apart.
  Context {A : Type} (start : list (act A)) (s0 : store).
  Hypothesis Free : forall i j a b, i <> j -> nth_error start i = Some a -> nth_error start j = Some b -> ~ clash a b s0.
  Hypothesis Ends : forall a, In a start -> fst (finish_of a s0) <> None.

  (** Every schedule can be carried on until all are done. *)
  Lemma can_end ns : exists ms, Forall over (fst (schedule (ns ++ ms) (start, s0))).
  Proof.
    set (N := list_max (map (fun a => length (trace a s0)) start)).
    exists (flat_map (fun i => repeat i N) (seq 0 (length start))).
    set (l := ns ++ flat_map (fun i => repeat i N) (seq 0 (length start))).
    destruct (apart_at start s0 Free l) as (Len & H & _). apply Forall_forall. intros x I. apply In_nth_error in I as [i Ei].
    destruct (nth_error start i) as [a|] eqn:Ea.
    2:{ apply nth_error_None in Ea. assert (i < length start) by (rewrite <- Len; apply nth_error_Some; congruence). lia. }
    destruct (H _ _ Ea) as [E _]. rewrite Ei in E. injection E as ->.
    assert (L : N <= count_occ Nat.eq_dec l i).
    { unfold l. rewrite count_occ_app. assert (G : In i (seq 0 (length start))) by (apply in_seq; split; [lia|]; apply nth_error_Some; congruence).
      clear - G. induction (seq 0 (length start)) as [|j q IH]; [destruct G|]. cbn [flat_map]. rewrite count_occ_app.
      destruct G as [->|G]; [|specialize (IH G); lia]. rewrite count_occ_repeat_eq by reflexivity. lia. }
    assert (Tr : length (trace a s0) <= N).
    { unfold N. assert (Q : Forall (fun k => k <= N) (map (fun a => length (trace a s0)) start)) by (apply list_max_le; unfold N; lia).
      rewrite Forall_forall in Q. apply Q. apply in_map_iff. exists a. split; auto. eapply nth_error_In; eauto. }
    rewrite solo_end by lia. cbn [fst]. pose proof (Ends a (nth_error_In _ _ Ea)). destruct (fst (finish_of a s0)) as [r|]; [now exists r|congruence].
  Qed.
End Apart.

