(** * Facts about accesses of goroutines *)
From Coq Require Import Ascii String List NArith ZArith Bool Lia.
From Verif Require Import GoStr Heap ArrayModel MapModel SpecDict ConcModel AccessModel SpecAccess.
Import ListNotations.

(** ** The accesses of a goroutine that runs alone *)
Section One.
  Context {A : Type}.

  Fixpoint trace (a : act A) (s : shared) : list (var * bool) :=
    match a with
    | Ret _ | Crash => []
    | ReadTable f => (VTable, false) :: trace (f (c_tbl s)) s
    | ReadKeys f => (VKeys, false) :: trace (f (c_keys s)) s
    | ReadVals f => (VVals, false) :: trace (f (c_vals s)) s
    | WriteTable g a => (VTable, true) :: trace a (Shared (g (c_tbl s)) (c_keys s) (c_vals s))
    | WriteKeys l a => (VKeys, true) :: trace a (Shared (c_tbl s) l (c_vals s))
    | WriteVals g a => (VVals, true) :: trace a (Shared (c_tbl s) (c_keys s) (g (c_vals s)))
    end.
  (** How it ends. *)
  Fixpoint finish_of (a : act A) (s : shared) : option A * shared :=
    match a with
    | Ret r => (Some r, s) | Crash => (None, s)
    | ReadTable f => finish_of (f (c_tbl s)) s
    | ReadKeys f => finish_of (f (c_keys s)) s
    | ReadVals f => finish_of (f (c_vals s)) s
    | WriteTable g a => finish_of a (Shared (g (c_tbl s)) (c_keys s) (c_vals s))
    | WriteKeys l a => finish_of a (Shared (c_tbl s) l (c_vals s))
    | WriteVals g a => finish_of a (Shared (c_tbl s) (c_keys s) (g (c_vals s)))
    end.

  Lemma access_trace n : forall a s, access (fst (solo_run n a s)) = nth_error (trace a s) n.
  Proof.
    induction n as [|n IH]; intros a s.
    - destruct a; reflexivity.
    - destruct a; cbn [solo_run step trace nth_error]; try apply IH; rewrite IH; cbn [trace]; destruct n; reflexivity.
  Qed.
  Lemma solo_add n : forall m (a : act A) s, solo_run (n + m) a s = let (a', s') := solo_run n a s in solo_run m a' s'.
  Proof. induction n as [|n IH]; intros m a s; cbn [solo_run Nat.add]; auto. destruct (step a s). apply IH. Qed.
  Lemma solo_S n (a : act A) s : solo_run (S n) a s = let (a', s') := solo_run n a s in step a' s'.
  Proof. replace (S n) with (n + 1) by lia. rewrite solo_add. destruct (solo_run n a s) as [a' s']. cbn. now destruct (step a' s'). Qed.
  Lemma solo_over n : forall (a : act A) s, access a = None -> solo_run n a s = (a, s).
  Proof. induction n as [|n IH]; intros a s H; cbn [solo_run]; auto. destruct a; try discriminate; cbn [step]; auto. Qed.
  Lemma solo_end (a : act A) : forall s n, length (trace a s) <= n ->
    solo_run n a s = (match fst (finish_of a s) with Some r => Ret r | None => Crash end, snd (finish_of a s)).
  Proof.
    induction a; intros s [|n] Hn; cbn [trace length finish_of fst snd solo_run step] in *; try lia; auto;
      try (rewrite solo_over; reflexivity);
      match goal with IH : forall s n, _ |- _ => apply IH; lia | IH : forall x s n, _ |- _ => apply IH; lia end.
  Qed.

  Lemma clash_trace (a b : act A) s : clash a b s <-> exists x y, In x (trace a s) /\ In y (trace b s) /\ conflicting x y = true.
  Proof.
    split.
    - intros (i & j & x & y & Ha & Hb & C). rewrite access_trace in Ha, Hb. exists x, y.
      split; [eapply nth_error_In; eauto|]. split; [eapply nth_error_In; eauto|exact C].
    - intros (x & y & Ha & Hb & C). apply In_nth_error in Ha as [i Ha]. apply In_nth_error in Hb as [j Hb].
      exists i, j, x, y. now rewrite !access_trace.
  Qed.
  Lemma clash_dec (a b : act A) s : clash a b s \/ ~ clash a b s.
  Proof.
    destruct (existsb (fun x => existsb (conflicting x) (trace b s)) (trace a s)) eqn:E.
    - left. apply clash_trace. apply existsb_exists in E as (x & Hx & E). apply existsb_exists in E as (y & Hy & E). eauto.
    - right. intros C. apply clash_trace in C as (x & y & Hx & Hy & C).
      assert (existsb (fun x => existsb (conflicting x) (trace b s)) (trace a s) = true); [|congruence].
      apply existsb_exists. exists x. split; auto. apply existsb_exists. eauto.
  Qed.

  (** ** One step depends on one variable only *)
  Definition value (v : var) (s : shared) : (list (str * option loc)) + (list str) + (list (option loc)) :=
    match v with VTable => inl (inl (c_tbl s)) | VKeys => inl (inr (c_keys s)) | VVals => inr (c_vals s) end.

  Lemma step_same (a : act A) s s' v w : access a = Some (v, w) -> value v s = value v s' ->
    fst (step a s) = fst (step a s') /\ value v (snd (step a s)) = value v (snd (step a s')).
  Proof. destruct a; intros H E; inversion H; subst; cbn in *; inversion E as [E']; rewrite ?E'; split; auto; congruence. Qed.
  Lemma step_other (a : act A) s v : (forall w, access a = Some (v, w) -> w = false) -> value v (snd (step a s)) = value v s.
  Proof.
    intros H. destruct a, v; cbn in *; auto; specialize (H true eq_refl); discriminate.
  Qed.
  Lemma step_none (a : act A) s : access a = None -> step a s = (a, s).
  Proof. destruct a; try discriminate; reflexivity. Qed.
  Lemma shared_ext s s' : (forall v, value v s = value v s') -> s = s'.
  Proof.
    intros H. pose proof (H VTable). pose proof (H VKeys). pose proof (H VVals). destruct s, s'; cbn in *. congruence.
  Qed.
End One.

Lemma conflicting_sym x y : conflicting x y = conflicting y x.
Proof. destruct x as [[] []], y as [[] []]; reflexivity. Qed.
Lemma conflicting_on v w w' : conflicting (v, w) (v, w') = w || w'.
Proof. destruct v; reflexivity. Qed.

(** ** Goroutines that do not clash *)
Section Team.
  Context {A : Type} (start : list (act A)) (s0 : shared).
  Hypothesis Free : forall i j a b, i <> j -> nth_error start i = Some a -> nth_error start j = Some b -> ~ clash a b s0.

  Definition touches (a : act A) (v : var) (w : bool) : Prop := In (v, w) (trace a s0).

  Definition apart_inv (ns : nat -> nat) (st : list (act A) * shared) : Prop :=
    length (fst st) = length start
    /\ (forall i a, nth_error start i = Some a ->
          nth_error (fst st) i = Some (fst (solo_run (ns i) a s0))
          /\ forall v w, touches a v w -> value v (snd st) = value v (snd (solo_run (ns i) a s0)))
    /\ (forall v, value v (snd st) = value v s0 \/ exists i a, nth_error start i = Some a /\ touches a v true).

  Lemma nth_upd_same {B} (l : list B) n x y : nth_error l n = Some x -> nth_error (upd l n y) n = Some y.
  Proof. revert n. induction l as [|z l IH]; intros [|n] H; cbn in *; try discriminate; auto. Qed.
  Lemma nth_upd_other {B} (l : list B) n m x : n <> m -> nth_error (upd l n x) m = nth_error l m.
  Proof. revert n m. induction l as [|z l IH]; intros [|n] [|m] H; cbn; auto; try congruence. Qed.
  Lemma length_upd {B} (l : list B) n x : length (upd l n x) = length l.
  Proof. revert n. induction l as [|z l IH]; intros [|n]; cbn; auto. Qed.

  Lemma apart_step ns st n : apart_inv ns st -> apart_inv (fun j => if Nat.eqb n j then S (ns j) else ns j) (turn_of n st).
  Proof.
    intros (Len & H & V). unfold turn_of. destruct (nth_error (fst st) n) as [c|] eqn:En.
    2:{ split; auto. split; auto. intros i a Ei. destruct (Nat.eqb_spec n i) as [<-|N]; [|auto].
        destruct (H _ _ Ei) as [E _]. congruence. }
    destruct (nth_error start n) as [a0|] eqn:Es.
    2:{ apply nth_error_None in Es. assert (n < length (fst st)) by (apply nth_error_Some; congruence). lia. }
    destruct (H _ _ Es) as [E0 Va]. assert (c = fst (solo_run (ns n) a0 s0)) by congruence. subst c.
    assert (St : fst (step (fst (solo_run (ns n) a0 s0)) (snd st)) = fst (solo_run (S (ns n)) a0 s0)
              /\ forall v w, touches a0 v w -> value v (snd (step (fst (solo_run (ns n) a0 s0)) (snd st))) = value v (snd (solo_run (S (ns n)) a0 s0))).
    { rewrite solo_S. specialize (access_trace (ns n) a0 s0). destruct (solo_run (ns n) a0 s0) as [c sc]. cbn [fst snd] in *.
      intros Ac. destruct (access c) as [[v w]|] eqn:Ec.
      - symmetry in Ac. apply nth_error_In in Ac. pose proof (Va v w Ac) as Ev. destruct (step_same c (snd st) sc v w Ec Ev) as [E1 E2].
        split; auto. intros v' w' T'. destruct (Va v' w' T').
        destruct (var_eqb v v') eqn:Evv; [destruct v, v'; try discriminate; exact E2|].
        rewrite !step_other; eauto; intros u Hu; rewrite Ec in Hu; inversion Hu; subst; destruct v'; discriminate.
      - rewrite !step_none by auto. split; auto. }
    destruct (step (fst (solo_run (ns n) a0 s0)) (snd st)) as [c' s'] eqn:Est. cbn [fst snd] in *. destruct St as [Sf Sv].
    assert (Oth : forall v, value v s' = value v (snd st) \/ touches a0 v true).
    { intros v. pose proof (access_trace (ns n) a0 s0) as Ac.
      destruct (access (fst (solo_run (ns n) a0 s0))) as [[v1 w1]|] eqn:Ec.
      - symmetry in Ac. apply nth_error_In in Ac. destruct (var_eqb v1 v) eqn:Ev.
        + assert (v1 = v) by (destruct v1, v; auto; discriminate). subst v1. destruct w1; [right; exact Ac|].
          left. change s' with (snd (c', s')). rewrite <- Est. apply step_other. intros w Hw. rewrite Ec in Hw. congruence.
        + left. change s' with (snd (c', s')). rewrite <- Est. apply step_other. intros w Hw. rewrite Ec in Hw. inversion Hw; subst. destruct v; discriminate.
      - left. rewrite step_none in Est by auto. inversion Est. reflexivity. }
    split; [cbn [fst]; now rewrite length_upd|]. split.
    - intros i a Ei. destruct (Nat.eqb_spec n i) as [<-|N].
      + assert (a = a0) by congruence. subst a. cbn [fst snd]. rewrite (nth_upd_same _ _ _ _ En), Sf. split; auto.
      + cbn [fst snd]. rewrite nth_upd_other by auto. destruct (H _ _ Ei) as [Ea Vv]. split; auto.
        intros v w T. rewrite <- (Vv v w T). destruct (Oth v) as [E|T0]; auto. exfalso.
        apply (Free n i a0 a N Es Ei). apply clash_trace. exists (v, true), (v, w). split; [exact T0|]. split; [exact T|]. now rewrite conflicting_on.
    - intros v. cbn [snd]. destruct (Oth v) as [->|T]; [apply V|]. right. eauto.
  Qed.

  Lemma apart_start : apart_inv (fun _ => 0) (start, s0).
  Proof. split; [reflexivity|]. split; [|now left]. intros i a E. split; auto. Qed.
  Lemma apart_schedule ns : forall f st, apart_inv f st -> apart_inv (fun j => count_occ Nat.eq_dec ns j + f j) (schedule ns st).
  Proof.
    induction ns as [|n ns IH]; intros f st H; [exact H|]. change (schedule (n :: ns) st) with (schedule ns (turn_of n st)).
    apply (apart_step f st n) in H. apply IH in H. destruct H as (Len & H & V). split; auto. split; auto.
    intros i a Ei. specialize (H i a Ei). cbn [count_occ] in *.
    destruct (Nat.eqb_spec n i), (Nat.eq_dec n i); try congruence. rewrite Nat.add_succ_r in H. exact H.
  Qed.
  Lemma apart_at ns : apart_inv (fun j => count_occ Nat.eq_dec ns j) (schedule ns (start, s0)).
  Proof.
    pose proof (apart_schedule ns _ _ apart_start) as (Len & H & V). split; auto. split; auto.
    intros i a Ei. specialize (H i a Ei). rewrite Nat.add_0_r in H. exact H.
  Qed.

  Lemma never_racing ns : ~ racing (fst (schedule ns (start, s0))).
  Proof.
    intros (i & j & a & b & x & y & N & Ea & Eb & Ax & Ay & C). destruct (apart_at ns) as (Len & H & _).
    assert (Si : forall i a, nth_error (fst (schedule ns (start, s0))) i = Some a -> exists a0, nth_error start i = Some a0).
    { intros k c E. assert (k < length start) by (rewrite <- Len; apply nth_error_Some; congruence).
      destruct (nth_error start k) eqn:Ek; eauto. apply nth_error_None in Ek. lia. }
    destruct (Si _ _ Ea) as [a0 Ea0]. destruct (Si _ _ Eb) as [b0 Eb0].
    apply (Free i j a0 b0 N Ea0 Eb0). destruct (H _ _ Ea0) as [E1 _]. destruct (H _ _ Eb0) as [E2 _].
    rewrite Ea in E1. rewrite Eb in E2. inversion E1; subst. inversion E2; subst. do 4 eexists. eauto.
  Qed.

  Lemma same_result ns i a r : nth_error start i = Some a -> nth_error (fst (schedule ns (start, s0))) i = Some (Ret r) ->
    fst (finish_of a s0) = Some r.
  Proof.
    intros Ea Er. destruct (apart_at ns) as (_ & H & _). destruct (H _ _ Ea) as [E _]. rewrite Er in E. injection E as E.
    set (n := count_occ Nat.eq_dec ns i) in *. 
    pose proof (solo_end a s0 (n + length (trace a s0)) ltac:(lia)) as K. rewrite solo_add in K.
    destruct (solo_run n a s0) as [a' s']. cbn [fst] in E. subst a'. rewrite solo_over in K by reflexivity.
    destruct (finish_of a s0) as [[r'|] sf]; cbn in *; congruence.
  Qed.
  Lemma never_crashes ns i a r : nth_error start i = Some a -> fst (finish_of a s0) = Some r -> nth_error (fst (schedule ns (start, s0))) i <> Some Crash.
  Proof.
    intros Ea Ef Er. destruct (apart_at ns) as (_ & H & _). destruct (H _ _ Ea) as [E _]. rewrite Er in E. injection E as E.
    set (n := count_occ Nat.eq_dec ns i) in *.
    pose proof (solo_end a s0 (n + length (trace a s0)) ltac:(lia)) as K. rewrite solo_add in K.
    destruct (solo_run n a s0) as [a' s']. cbn [fst] in E. subst a'. rewrite solo_over in K by reflexivity.
    rewrite Ef in K. discriminate.
  Qed.

  (** Two schedules that finish all leave the same. *)
  Lemma finished_state ns i a v w : nth_error start i = Some a -> touches a v w ->
    (exists r, nth_error (fst (schedule ns (start, s0))) i = Some (Ret r)) ->
    value v (snd (schedule ns (start, s0))) = value v (snd (finish_of a s0)).
  Proof.
    intros Ea T [r Er]. destruct (apart_at ns) as (_ & H & _). destruct (H _ _ Ea) as [E Vv]. rewrite Er in E. injection E as E.
    rewrite (Vv v w T). set (n := count_occ Nat.eq_dec ns i) in *.
    pose proof (solo_end a s0 (n + length (trace a s0)) ltac:(lia)) as K. rewrite solo_add in K.
    destruct (solo_run n a s0) as [a' s']. cbn [fst snd] in *. subst a'. rewrite solo_over in K by reflexivity. congruence.
  Qed.
  Lemma same_state ns ns' : Forall over (fst (schedule ns (start, s0))) -> Forall over (fst (schedule ns' (start, s0))) ->
    snd (schedule ns (start, s0)) = snd (schedule ns' (start, s0)).
  Proof.
    intros F F'.
    assert (O : forall ms, Forall over (fst (schedule ms (start, s0))) -> forall i a, nth_error start i = Some a ->
               exists r, nth_error (fst (schedule ms (start, s0))) i = Some (Ret r)).
    { intros ms G i a E. destruct (apart_at ms) as (_ & H & _). destruct (H _ _ E) as [E1 _]. rewrite E1.
      rewrite Forall_forall in G. apply nth_error_In in E1. destruct (G _ E1) as [r ->]. eauto. }
    apply shared_ext. intros v. destruct (apart_at ns) as (_ & _ & V). destruct (apart_at ns') as (_ & _ & V').
    destruct (V v) as [E|(i & a & Ea & T)].
    - destruct (V' v) as [E'|(i & a & Ea & T)]; [congruence|].
      rewrite (finished_state ns i a v true Ea T (O ns F _ _ Ea)). symmetry. eapply finished_state; eauto.
    - rewrite (finished_state ns i a v true Ea T (O ns F _ _ Ea)). symmetry. eapply finished_state; eauto.
  Qed.
End Team.
