(** * Facts about programs that write into the slice behind GetValues *)
From Coq Require Import Ascii String List NArith ZArith Bool Lia.
From Verif Require Import GoStr StrLemmas GoNum GoFloat Heap Common ValueModel ArrayModel MapModel
  SpecDict DictLemmas SpecWorld Inv World Reach MapFacts KeysSlice SpecKeys KeysFacts SpecLoop LoopModel LoopFacts ElemSlice SpecElems ElemFacts
  PokeModel SpecPoke.
Import ListNotations.
Open Scope nat_scope.

Definition dvalid (D : desk) : Prop := evalid (d_array D) /\ Forall (within (e_mem (d_array D))) (d_held D).

Lemma within_len mem s : within mem s -> length (v_content mem s) = s_len s.
Proof. intros (_ & L & C). unfold v_content. rewrite firstn_length. lia. Qed.

(** Writing one element of a backing array. *)
Lemma firstn_upd {A} (l : list A) k n x : firstn k (upd l n x) = if Nat.ltb n k then list_set (firstn k l) n x else firstn k l.
Proof.
  revert k n. induction l as [|y l IH]; intros [|k] [|n]; cbn [upd firstn list_set]; auto.
  - destruct (Nat.ltb _ _); reflexivity.
  - rewrite IH. change (Nat.ltb (S n) (S k)) with (Nat.ltb n k). destruct (Nat.ltb n k); reflexivity.
Qed.
Lemma write_shows mem s t n x : s_base s < length mem ->
  v_content (upd mem (s_base s) (upd (nth (s_base s) mem []) n x)) t = shown_set s t n x (v_content mem t).
Proof.
  intros B. unfold v_content, shown_set. destruct (Nat.eqb_spec (s_base t) (s_base s)) as [->|N].
  - rewrite nth_upd_same by auto. cbn [andb]. now rewrite firstn_upd.
  - now rewrite nth_upd_other by auto.
Qed.
Lemma write_within mem s t n x : s_base s < length mem -> within mem t -> within (upd mem (s_base s) (upd (nth (s_base s) mem []) n x)) t.
Proof.
  intros B (B' & L & C). unfold within. rewrite upd_length. split; auto. split; auto.
  destruct (Nat.eq_dec (s_base t) (s_base s)) as [E|N].
  - rewrite E, nth_upd_same by auto. rewrite upd_length. congruence.
  - rewrite nth_upd_other; auto.
Qed.
Lemma grow_within mem l t : within mem t -> within (mem ++ [l]) t.
Proof. intros (B & L & C). unfold within. rewrite app_length. cbn [length]. split; [lia|]. split; auto. rewrite app_nth1; auto. Qed.
Lemma grow_shows mem l t : s_base t < length mem -> v_content (mem ++ [l]) t = v_content mem t.
Proof. intros B. unfold v_content. now rewrite app_nth1. Qed.

(** [append(s, x)]. *)
Lemma append_one grow mem s x : within mem s ->
  let (mem', s') := v_append grow mem s [x] in
  within mem' s' /\ v_content mem' s' = v_content mem s ++ [x]
  /\ (s_len s < s_cap s -> s_base s' = s_base s /\ s_len s' = S (s_len s) /\ s_cap s' = s_cap s)
  /\ (s_len s = s_cap s -> s_base s' = length mem)
  /\ forall t, within mem t -> within mem' t
     /\ v_content mem' t = if Nat.ltb (s_len s) (s_cap s) then shown_set s t (s_len s) x (v_content mem t) else v_content mem t.
Proof.
  intros (B & L & C). unfold v_append. cbn [length]. rewrite Nat.add_1_r.
  destruct (Nat.leb_spec (S (s_len s)) (s_cap s)) as [H|H].
  - rewrite (proj2 (Nat.ltb_lt _ _)) by lia. rewrite write_one by lia. rewrite <- upd_list_set.
    set (mem' := upd _ _ _).
    assert (W : forall t, within mem t -> within mem' t /\ v_content mem' t = shown_set s t (s_len s) x (v_content mem t)).
    { intros t Wt. split; [now apply write_within|now apply write_shows]. }
    assert (Ws : within mem (Slice (s_base s) (S (s_len s)) (s_cap s))) by (unfold within; cbn; auto).
    destruct (W _ Ws) as [W1 W2]. split; [exact W1|]. split; [|split; [|split; [lia|exact W]]].
    + rewrite W2. unfold shown_set. cbn [s_base s_len]. rewrite Nat.eqb_refl, (proj2 (Nat.ltb_lt _ _)) by lia. cbn [andb].
      unfold v_content. cbn [s_base s_len]. set (l := nth (s_base s) mem []) in *. rewrite <- upd_list_set. rewrite upd_split by (rewrite firstn_length; lia).
      rewrite firstn_firstn, Nat.min_l by lia. rewrite skipn_all2 by (rewrite firstn_length; lia). reflexivity.
    + intros _. auto.
  - rewrite (proj2 (Nat.ltb_ge _ _)) by lia.
    assert (Lc : length (v_content mem s) = s_len s) by (now apply within_len).
    set (c := Nat.max (S (s_len s)) (grow mem)).
    split; [|split; [|split; [lia|split; [auto|]]]].
    + unfold within. cbn [s_base s_len s_cap]. rewrite app_length, app_nth2, Nat.sub_diag by lia. cbn [length nth].
      rewrite !app_length, repeat_length, Lc. cbn [length]. lia.
    + unfold v_content at 1. cbn [s_base s_len]. rewrite app_nth2, Nat.sub_diag by lia. cbn [nth].
      rewrite app_assoc, firstn_app, app_length, Lc. cbn [length]. replace (S (s_len s) - (s_len s + 1)) with 0 by lia.
      rewrite firstn_O, app_nil_r. apply firstn_all2. rewrite app_length, Lc. cbn. lia.
    + intros t Wt. split; [now apply grow_within|]. apply grow_shows. exact (proj1 Wt).
Qed.

Lemma e_step_within grow o E t : evalid E -> within (e_mem E) t -> within (e_mem (e_step grow o E)) t.
Proof.
  intros V W. destruct (bstep (nth (s_base (e_values E)) (e_mem E) []) (s_len (e_values E)) o) as [[B' n']|] eqn:Q.
  - pose proof V as (B & L & C). assert (Ln : s_len (e_values E) <= length (nth (s_base (e_values E)) (e_mem E) [])) by lia.
    destruct (bstep_ok _ _ _ _ _ Ln Q) as (L1 & _). rewrite (step_here grow o E B' n' V Q). cbn [e_mem].
    destruct W as (B2 & L2 & C2). unfold within. rewrite upd_length. split; auto. split; auto.
    destruct (Nat.eq_dec (s_base t) (s_base (e_values E))) as [Eb|N].
    + rewrite Eb, nth_upd_same by auto. rewrite L1. congruence.
    + rewrite nth_upd_other; auto.
  - destruct (step_away grow o E V Q) as (x & l & c & -> & E1 & _). rewrite E1. now apply grow_within.
Qed.

Lemma Forall_upd {A} (P : A -> Prop) l k x : Forall P l -> P x -> Forall P (upd l k x).
Proof. intros F. revert k. induction F as [|y l Py F IH]; intros [|k] Px; cbn; auto. Qed.

Lemma p_step_valid grow o D D' : dvalid D -> p_step grow o D = Some D' -> dvalid D'.
Proof.
  intros [V F] E. rewrite Forall_forall in F.
  assert (Hk : forall k s, nth_error (d_held D) k = Some s -> within (e_mem (d_array D)) s) by (intros k s Hs; apply F; eapply nth_error_In; eauto).
  destruct o as [o| |l|k n|k n x|k x|k]; cbn [p_step] in E.
  - injection E as <-. split; cbn [d_array d_held]; [apply e_step_ok, V|]. apply Forall_forall. intros t I. apply e_step_within; auto.
  - injection E as <-. split; [exact V|]. cbn [d_array d_held]. apply Forall_app. split; [now apply Forall_forall|]. constructor; auto.
  - injection E as <-. unfold dvalid, evalid. cbn [d_array d_held e_mem e_values]. split; [now apply grow_within|].
    apply Forall_app. split; [apply Forall_forall; intros t I; apply grow_within; auto|]. constructor; auto.
    unfold within. cbn [s_base s_len s_cap]. rewrite app_length, app_nth2, Nat.sub_diag by lia. cbn. lia.
  - destruct (nth_error (d_held D) k) as [s|] eqn:Ek; [|discriminate]. destruct (Nat.leb_spec n (s_cap s)); [|discriminate]. injection E as <-.
    split; [exact V|]. cbn [d_array d_held]. apply Forall_upd; [now apply Forall_forall|]. destruct (Hk _ _ Ek) as (B & _ & C). unfold within. cbn. auto.
  - destruct (nth_error (d_held D) k) as [s|] eqn:Ek; [|discriminate]. destruct (Nat.ltb_spec n (s_len s)); [|discriminate]. injection E as <-.
    unfold dvalid, evalid. cbn [d_array d_held e_mem e_values]. destruct (Hk _ _ Ek) as (B & _ & C).
    split; [now apply write_within|]. apply Forall_forall. intros t I. apply write_within; auto.
  - destruct (nth_error (d_held D) k) as [s|] eqn:Ek; [|discriminate]. pose proof (append_one grow (e_mem (d_array D)) s x (Hk _ _ Ek)) as A.
    destruct (v_append grow (e_mem (d_array D)) s [x]) as [mem s'] eqn:Q. injection E as <-. destruct A as (W & _ & _ & _ & G).
    unfold dvalid, evalid. cbn [d_array d_held e_mem e_values]. split; [now apply G|]. apply Forall_upd; auto. apply Forall_forall. intros t I. apply G. auto.
  - destruct (nth_error (d_held D) k) as [s|] eqn:Ek; [|discriminate]. injection E as <-. split; cbn; [exact (Hk _ _ Ek)|now apply Forall_forall].
Qed.
Lemma p_run_valid grow ps : forall D D', dvalid D -> p_run grow ps D = Some D' -> dvalid D'.
Proof.
  induction ps as [|o ps IH]; intros D D' V E; cbn in E; [injection E as <-; exact V|].
  destruct (p_step grow o D) as [D1|] eqn:E1; [|discriminate]. exact (IH D1 D' (p_step_valid _ _ _ _ V E1) E).
Qed.
Lemma dvalid_new : dvalid p_new.
Proof. split; [apply evalid_new|constructor]. Qed.

Section Reached.
  Variables (grow : vmem -> nat) (before : list stmt) (D : desk).
  Hypothesis Run : p_run grow before p_new = Some D.
  Let V : dvalid D := p_run_valid _ _ _ _ dvalid_new Run.

  Lemma methods_ok o : e_content (e_step grow o (d_array D)) = elem_step (d_content D) o.
  Proof. apply e_step_ok, V. Qed.

  Lemma Dheld k s : nth_error (d_held D) k = Some s -> within (e_mem (d_array D)) s.
  Proof. intros E. destruct V as [_ F]. rewrite Forall_forall in F. apply F. eapply nth_error_In; eauto. Qed.

  Lemma set_ok k n x s : nth_error (d_held D) k = Some s ->
    (s_len s <= n -> p_step grow (PSet k n x) D = None)
    /\ (n < s_len s -> exists D', p_step grow (PSet k n x) D = Some D' /\ d_held D' = d_held D /\ e_values (d_array D') = e_values (d_array D)
         /\ forall t, t = e_values (d_array D) \/ In t (d_held D) -> d_shows D' t = shown_set s t n x (d_shows D t)).
  Proof.
    intros E. cbn [p_step]. rewrite E. split; intros L.
    - now rewrite (proj2 (Nat.ltb_ge _ _)) by lia.
    - rewrite (proj2 (Nat.ltb_lt _ _)) by lia. eexists. split; [reflexivity|]. split; [reflexivity|]. split; [reflexivity|].
      intros t _. unfold d_shows. cbn [d_array e_mem]. apply write_shows. exact (proj1 (Dheld _ _ E)).
  Qed.

  Lemma append_ok k x s : nth_error (d_held D) k = Some s ->
    exists D' s', p_step grow (PAppend k x) D = Some D' /\ d_held D' = upd (d_held D) k s' /\ e_values (d_array D') = e_values (d_array D)
      /\ d_shows D' s' = d_shows D s ++ [x]
      /\ forall t, t = e_values (d_array D) \/ In t (d_held D) ->
           d_shows D' t = if Nat.ltb (s_len s) (s_cap s) then shown_set s t (s_len s) x (d_shows D t) else d_shows D t.
  Proof.
    intros E. cbn [p_step]. rewrite E. pose proof (append_one grow (e_mem (d_array D)) s x (Dheld _ _ E)) as A.
    destruct (v_append grow (e_mem (d_array D)) s [x]) as [mem s'] eqn:Q. destruct A as (W & Ec & _ & _ & G).
    eexists _, s'. split; [reflexivity|]. split; [reflexivity|]. split; [reflexivity|]. split; [exact Ec|].
    intros t [->|I]; unfold d_shows; cbn [d_array e_mem]; apply G; [apply V|]. destruct V as [_ F]. rewrite Forall_forall in F. auto.
  Qed.

  Lemma store_ok k s : nth_error (d_held D) k = Some s ->
    exists D', p_step grow (PStore k) D = Some D' /\ d_content D' = d_shows D s /\ d_held D' = d_held D
      /\ e_values (d_array D') = s /\ forall t, d_shows D' t = d_shows D t.
  Proof. intros E. cbn [p_step]. rewrite E. eexists. split; [reflexivity|]. repeat split. Qed.

  Lemma copy_ok : exists D', p_step grow PCopy D = Some D' /\ d_array D' = d_array D /\ d_held D' = d_held D ++ [e_values (d_array D)]
    /\ d_shows D' (e_values (d_array D)) = d_content D'.
  Proof. eexists. split; [reflexivity|]. repeat split. Qed.

  Lemma cut_ok k n s : nth_error (d_held D) k = Some s ->
    (s_cap s < n -> p_step grow (PCut k n) D = None)
    /\ (n <= s_cap s -> exists D' s', p_step grow (PCut k n) D = Some D' /\ d_array D' = d_array D /\ d_held D' = upd (d_held D) k s'
         /\ s_base s' = s_base s /\ s_cap s' = s_cap s /\ length (d_shows D' s') = n
         /\ firstn (Nat.min n (s_len s)) (d_shows D' s') = firstn n (d_shows D s)).
  Proof.
    intros E. destruct (Dheld _ _ E) as (B & L & C). cbn [p_step]. rewrite E. split; intros H.
    - now rewrite (proj2 (Nat.leb_gt _ _)) by lia.
    - rewrite (proj2 (Nat.leb_le _ _)) by lia. eexists _, _. split; [reflexivity|]. split; [reflexivity|]. split; [reflexivity|].
      split; [reflexivity|]. split; [reflexivity|]. unfold d_shows, v_content. cbn [d_array s_base s_len]. split; [rewrite firstn_length; lia|].
      rewrite !firstn_firstn. f_equal. lia.
  Qed.

  (** s := the slice; a.AppendValue(y); s = append(s, x). *)
  Lemma both_append x y :
    exists D', p_run grow [PCopy; PCall (EAppend y); PAppend (length (d_held D)) x] D = Some D'
      /\ d_content D' = d_content D ++ [if Nat.ltb (s_len (e_values (d_array D))) (s_cap (e_values (d_array D))) then x else y].
  Proof.
    set (E := d_array D). set (s := e_values E). destruct V as [Ve F]. pose proof Ve as W. fold E in W. unfold evalid in W. fold s in W.
    cbn [p_run p_step d_array d_held]. fold E s. cbn [e_step]. fold s.
    pose proof (append_one grow (e_mem E) s y W) as A. destruct (v_append grow (e_mem E) s [y]) as [mem1 s1] eqn:Q1.
    destruct A as (W1 & C1 & R1 & N1 & G1). cbn [p_run p_step d_array d_held e_mem e_values].
    rewrite nth_error_app2, Nat.sub_diag by lia. cbn [nth_error].
    destruct (G1 s W) as [Ws Cs]. pose proof (append_one grow mem1 s x Ws) as A. destruct (v_append grow mem1 s [x]) as [mem2 s2] eqn:Q2.
    destruct A as (W2 & C2 & _ & _ & G2). eexists. split; [reflexivity|]. unfold d_content, e_content. cbn [d_array e_mem e_values]. fold E s.
    destruct (G2 s1 W1) as [_ ->]. rewrite C1. destruct (Nat.ltb_spec (s_len s) (s_cap s)) as [L|L]; [|reflexivity].
    unfold shown_set. destruct (R1 L) as (-> & -> & _). rewrite Nat.eqb_refl, (proj2 (Nat.ltb_lt _ _)) by lia. cbn [andb].
    rewrite <- (within_len _ _ W). apply list_set_split.
  Qed.

  (** A slice of its own. *)
  Lemma own_ok l ps D' :
    Forall (own_stmt (length (d_held D))) ps ->
    p_run grow (PMake l :: ps) D = Some D' ->
    d_content D' = fold_left elem_step (calls_of ps) (d_content D)
    /\ exists s, nth_error (d_held D') (length (d_held D)) = Some s /\ d_shows D' s = fold_left own_step ps l.
  Proof.
    intros Fo R. cbn [p_run] in R. destruct (p_step grow (PMake l) D) as [D1|] eqn:E1; [|discriminate].
    pose proof (p_step_valid _ _ _ _ V E1) as V1. cbn [p_step] in E1. injection E1 as E1.
    set (k := length (d_held D)) in *.
    assert (G : forall ps C m, dvalid C -> Forall (own_stmt k) ps -> (exists s, nth_error (d_held C) k = Some s /\ s_base s <> s_base (e_values (d_array C)) /\ d_shows C s = m) ->
              p_run grow ps C = Some D' ->
              d_content D' = fold_left elem_step (calls_of ps) (d_content C)
              /\ exists s, nth_error (d_held D') k = Some s /\ d_shows D' s = fold_left own_step ps m).
    { clear. induction ps as [|o ps IH]; intros C m V F (s & Hs & Nb & Es) R.
      - cbn in R. injection R as <-. split; [reflexivity|]. exists s. auto.
      - inversion F as [|? ? Fo F']; subst. cbn [p_run] in R. destruct (p_step grow o C) as [C1|] eqn:E1; [|discriminate].
        pose proof (p_step_valid _ _ _ _ V E1) as V1. pose proof V as [Ve Fh]. rewrite Forall_forall in Fh. pose proof (Fh s (nth_error_In _ _ Hs)) as Ws.
        destruct o as [o| |l|j n|j n x|j x|j]; cbn [own_stmt] in Fo; try contradiction; cbn [p_step] in E1; cbn [calls_of fold_left own_step].
        + injection E1 as <-. destruct (e_step_ok grow o (d_array C) Ve) as [_ Ec].
          assert (Q : s_base s <> s_base (e_values (e_step grow o (d_array C)))).
          { destruct (bstep (nth (s_base (e_values (d_array C))) (e_mem (d_array C)) []) (s_len (e_values (d_array C))) o) as [[B' n']|] eqn:Qb.
            - now rewrite (step_here grow o _ B' n' Ve Qb).
            - destruct (step_away grow o _ Ve Qb) as (x & l & c & -> & E2 & _). rewrite E2. cbn. pose proof (proj1 Ws). lia. }
          unfold d_content at 2. rewrite <- Ec.
          apply (IH (Desk (e_step grow o (d_array C)) (d_held C)) (d_shows C s) V1 F'); auto.
          exists s. split; [exact Hs|]. split; [exact Q|]. unfold d_shows. cbn [d_array].
          change (e_step grow o (d_array C)) with (e_run grow [o] (d_array C)). apply other_memory; auto. exact (proj1 Ws).
        + subst j. rewrite Hs in E1. destruct (Nat.ltb_spec n (s_len s)); [|discriminate]. injection E1 as <-.
          assert (Ec : d_content C = d_content (Desk (Elems (upd (e_mem (d_array C)) (s_base s) (upd (nth (s_base s) (e_mem (d_array C)) []) n x)) (e_values (d_array C))) (d_held C))).
          { unfold d_content, e_content. cbn [d_array e_mem e_values]. rewrite write_shows by (exact (proj1 Ws)). unfold shown_set.
            destruct (Nat.eqb_spec (s_base (e_values (d_array C))) (s_base s)); [congruence|]. reflexivity. }
          rewrite Ec. apply (IH _ (list_set (d_shows C s) n x) V1 F'); auto. exists s. split; [exact Hs|]. split; [exact Nb|].
          unfold d_shows. cbn [d_array e_mem]. rewrite write_shows by (exact (proj1 Ws)). unfold shown_set.
          now rewrite Nat.eqb_refl, (proj2 (Nat.ltb_lt _ _)) by lia.
        + subst j. rewrite Hs in E1. pose proof (append_one grow (e_mem (d_array C)) s x Ws) as A.
          destruct (v_append grow (e_mem (d_array C)) s [x]) as [mem s'] eqn:Q. injection E1 as <-. destruct A as (W' & Ec & Rm & Nr & G).
          destruct (G _ Ve) as [_ Ga].
          assert (Ea : d_content C = d_content (Desk (Elems mem (e_values (d_array C))) (upd (d_held C) k s'))).
          { unfold d_content, e_content. cbn [d_array e_mem e_values]. rewrite Ga. unfold shown_set.
            destruct (Nat.eqb_spec (s_base (e_values (d_array C))) (s_base s)); [congruence|]. cbn [andb]. destruct (Nat.ltb _ _); reflexivity. }
          rewrite Ea. apply (IH _ (d_shows C s ++ [x]) V1 F'); auto. exists s'. cbn [d_held d_array e_mem e_values].
          split; [rewrite nth_error_upd, Nat.eqb_refl by (apply nth_error_Some; congruence); reflexivity|]. split; [|exact Ec].
          destruct Ws as (B & L & _). destruct (Nat.lt_ge_cases (s_len s) (s_cap s)).
          * destruct (Rm H) as (-> & _). exact Nb.
          * rewrite Nr by lia. pose proof (proj1 Ve). lia. }
    assert (Ec : d_content D1 = d_content D).
    { rewrite <- E1. unfold d_content, e_content. cbn [d_array e_mem e_values]. apply grow_shows. exact (proj1 (proj1 V)). }
    rewrite <- Ec. apply (G ps D1 l V1 Fo); auto. exists (Slice (length (e_mem (d_array D))) (length l) (length l)). rewrite <- E1.
    cbn [d_held d_array e_mem e_values s_base]. split; [rewrite nth_error_app2, Nat.sub_diag by (unfold k; lia); reflexivity|].
    split; [pose proof (proj1 (proj1 V)); lia|]. unfold d_shows, v_content. cbn [d_array e_mem s_base s_len]. rewrite app_nth2, Nat.sub_diag by lia.
    cbn [nth]. apply firstn_all.
  Qed.
End Reached.

(** The order of the two appends, and the capacity, decide what the array holds. *)
Lemma poke_depends : exists before ps (g1 g2 : vmem -> nat) D1 D2 D1' D2',
  p_run g1 before p_new = Some D1 /\ p_run g2 before p_new = Some D2 /\ d_content D1 = d_content D2
  /\ p_run g1 ps D1 = Some D1' /\ p_run g2 ps D2 = Some D2' /\ d_content D1' <> d_content D2'.
Proof.
  exists [PCall (EAppend (Some 0))], [PCopy; PCall (EAppend (Some 1)); PAppend 0 (Some 2)], (fun _ => 0), (fun _ => 8).
  eexists _, _, _, _. repeat (split; [vm_compute; reflexivity|]). vm_compute. discriminate.
Qed.

(** ** The heap *)
Lemma existsb_upd {A} (f : A -> bool) l n x y : nth_error l n = Some x -> f x = f y -> existsb f (upd l n y) = existsb f l.
Proof. revert n. induction l as [|z l IH]; intros [|n] E F; cbn in *; try discriminate; [injection E as ->; now rewrite F|]. now rewrite (IH n). Qed.
Lemma has_arr_at h a : has (w_arr (view h)) a -> exists l, nth_error h a = Some (CArr l).
Proof. intros [l E]. cbn in E. destruct (nth_error h a) as [[]|]; try discriminate. eauto. Qed.
Lemma view_put h a l l' : nth_error h a = Some (CArr l) -> has (w_arr (view h)) a ->
  has (w_arr (view (upd h a (CArr l')))) a /\ forall v, has (w_val (view h)) v -> has (w_val (view (upd h a (CArr l')))) v.
Proof.
  intros E [xs Ha]. assert (L : a < length h) by (apply nth_error_Some; congruence). cbn in Ha. rewrite E in Ha. split.
  - exists l'. cbn. rewrite nth_error_upd, Nat.eqb_refl by auto. rewrite (existsb_upd _ _ _ _ (CArr l') E) by reflexivity.
    destruct (existsb _ _); [discriminate|reflexivity].
  - intros v [i Hv]. exists i. cbn in *. rewrite nth_error_upd by auto. destruct (Nat.eqb_spec a v) as [<-|]; [|exact Hv]. now rewrite E in Hv.
Qed.
Lemma upd_twice {A} (l : list A) n x y : upd (upd l n x) n y = upd l n y.
Proof. revert n. induction l; intros [|n]; cbn; f_equal; auto. Qed.

Lemma reach_shrink X a l : forall h, reachable X h -> nth_error h a = Some (CArr l) -> has (w_arr (view h)) a -> reachable X (upd h a (CArr [])).
Proof.
  induction l as [|x l IH]; intros h R E Ha; [now rewrite upd_upd_id|].
  assert (La : a < length h) by (apply nth_error_Some; congruence).
  assert (R1 : reachable X (upd h a (CArr l))).
  { apply (reachable_run_calls X [AArrRemoveValueAtIndex a 0] h [flag None] _ R); [split; [exact Ha|exact Logic.I]|].
    cbn [run_calls run_call]. unfold bind at 1 2. unfold arr_RemoveValueAtIndex. rewrite (proj2 (rd_arr_iff _ _ _) E).
    change (0 <? 0)%Z with false. rewrite (proj2 (Z.ltb_ge _ _)) by (cbn [length]; lia). unfold bind. rewrite wr_ok by auto. reflexivity. }
  rewrite <- (upd_twice h a (CArr l)). apply IH; auto.
  - rewrite nth_error_upd, Nat.eqb_refl by auto. reflexivity.
  - now apply (view_put h a (x :: l)).
Qed.
Lemma reach_fill X a l : forall h l0, reachable X h -> nth_error h a = Some (CArr l0) -> has (w_arr (view h)) a ->
  Forall (ok_value_handle (view h)) l -> reachable X (upd h a (CArr (l0 ++ l))).
Proof.
  induction l as [|x l IH]; intros h l0 R E Ha F; [now rewrite app_nil_r, upd_upd_id|].
  assert (La : a < length h) by (apply nth_error_Some; congruence). inversion F as [|? ? Fx F']; subst.
  assert (R1 : reachable X (upd h a (CArr (l0 ++ [x])))).
  { apply (reachable_run_calls X [AArrAppendValue a x] h [ODone] _ R); [split; [split; auto|exact Logic.I]|].
    cbn [run_calls run_call]. unfold bind at 1 2. unfold arr_AppendValue. rewrite (proj2 (rd_arr_iff _ _ _) E). rewrite wr_ok by auto. reflexivity. }
  destruct (view_put h a l0 (l0 ++ [x]) E Ha) as [Ha1 Hv].
  replace (l0 ++ x :: l) with ((l0 ++ [x]) ++ l) by (now rewrite <- app_assoc).
  rewrite <- (upd_twice h a (CArr (l0 ++ [x]))). apply IH; auto.
  - rewrite nth_error_upd, Nat.eqb_refl by auto. reflexivity.
  - eapply Forall_impl; [|exact F']. intros [v|]; cbn; auto.
Qed.
Lemma reach_poke X h a l : reachable X h -> has (w_arr (view h)) a -> Forall (ok_value_handle (view h)) l -> reachable X (upd h a (CArr l)).
Proof.
  intros R Ha F. destruct (has_arr_at _ _ Ha) as [l0 E]. assert (La : a < length h) by (apply nth_error_Some; congruence).
  destruct (view_put h a l0 [] E Ha) as [Ha1 Hv].
  rewrite <- (upd_twice h a (CArr [])). apply (reach_fill X a l _ []); auto.
  - exact (reach_shrink X a l0 h R E Ha).
  - rewrite nth_error_upd, Nat.eqb_refl by auto. reflexivity.
  - eapply Forall_impl; [|exact F]. intros [v|]; cbn; auto.
Qed.

(** Whatever the program writes, the slices hold only what it has named. *)
Section Named.
  Variable P : option nat -> Prop.
  Hypothesis Pnil : P None.
  Let all (mem : vmem) := Forall (Forall P) mem.

  Lemma Forall_firstn {A} (Q : A -> Prop) n l : Forall Q l -> Forall Q (firstn n l).
  Proof. intros F. apply Forall_forall. intros x I. rewrite Forall_forall in F. apply F. rewrite <- (firstn_skipn n l). apply in_or_app. auto. Qed.
  Lemma Forall_skipn {A} (Q : A -> Prop) n l : Forall Q l -> Forall Q (skipn n l).
  Proof. intros F. apply Forall_forall. intros x I. rewrite Forall_forall in F. apply F. rewrite <- (firstn_skipn n l). apply in_or_app. auto. Qed.
  Lemma all_nth mem b : all mem -> Forall P (nth b mem []).
  Proof. intros F. revert b. induction F as [|l mem Fl F IH]; intros [|b]; cbn; auto. Qed.
  Lemma all_write l n xs : Forall P l -> Forall P xs -> Forall P (write_at l n xs).
  Proof. intros Fl Fx. unfold write_at. apply Forall_app. split; [now apply Forall_firstn|]. apply Forall_app. split; [exact Fx|now apply Forall_skipn]. Qed.
  Lemma all_append grow mem s xs mem' s' : all mem -> Forall P xs -> v_append grow mem s xs = (mem', s') -> all mem'.
  Proof.
    intros Fm Fx E. unfold v_append in E. pose proof (all_nth mem (s_base s) Fm) as Fb. destruct (Nat.leb _ _); injection E as <- _.
    - apply Forall_upd; auto. now apply all_write.
    - apply Forall_app. split; [exact Fm|]. constructor; [|constructor]. apply Forall_app. split; [unfold v_content; now apply Forall_firstn|].
      apply Forall_app. split; [exact Fx|]. apply Forall_forall. intros y I. apply repeat_spec in I. now subst.
  Qed.
  Lemma all_step grow o E : names P (PCall o) -> all (e_mem E) -> all (e_mem (e_step grow o E)).
  Proof.
    intros N F. destruct o as [x|n x|n]; cbn [e_step names] in *.
    - destruct (v_append grow (e_mem E) (e_values E) [x]) as [mem s'] eqn:Q. cbn. eapply all_append; [exact F| |exact Q]. auto.
    - destruct (e_index _ _); [|exact F]. cbn [e_mem]. apply Forall_upd; auto. rewrite <- ?upd_list_set. apply Forall_upd; auto. now apply all_nth.
    - destruct (e_index _ _); [|exact F].
      destruct (v_append grow _ _ _) as [mem s'] eqn:Q. cbn. eapply all_append; [exact F| |exact Q].
      apply Forall_skipn. unfold e_content, v_content. apply Forall_firstn. now apply all_nth.
  Qed.
  Lemma all_pstep grow o D D' : names P o -> all (e_mem (d_array D)) -> p_step grow o D = Some D' -> all (e_mem (d_array D')).
  Proof.
    intros N F E. destruct o as [o| |l|k n|k n x|k x|k]; cbn [p_step] in E.
    - injection E as <-. cbn. now apply all_step.
    - injection E as <-. exact F.
    - injection E as <-. cbn. apply Forall_app. split; auto.
    - destruct (nth_error _ _); [|discriminate]. destruct (Nat.leb _ _); [|discriminate]. injection E as <-. exact F.
    - destruct (nth_error _ _); [|discriminate]. destruct (Nat.ltb _ _); [|discriminate]. injection E as <-. cbn.
      apply Forall_upd; auto. apply Forall_upd; auto. now apply all_nth.
    - destruct (nth_error _ _) as [s|]; [|discriminate]. destruct (v_append grow (e_mem (d_array D)) s [x]) as [mem s'] eqn:Q. injection E as <-. cbn.
      eapply all_append; [exact F| |exact Q]. constructor; auto.
    - destruct (nth_error _ _); [|discriminate]. injection E as <-. exact F.
  Qed.
  Lemma named_run grow ps : forall D D', Forall (names P) ps -> all (e_mem (d_array D)) -> p_run grow ps D = Some D' -> all (e_mem (d_array D')).
  Proof.
    induction ps as [|o ps IH]; intros D D' F A E; cbn in E; [injection E as <-; exact A|]. inversion F; subst.
    destruct (p_step grow o D) as [D1|] eqn:E1; [|discriminate]. eapply (IH D1); eauto. eapply all_pstep; eauto.
  Qed.
  Lemma named_content grow ps D : Forall (names P) ps -> p_run grow ps p_new = Some D -> Forall P (d_content D).
  Proof.
    intros F E. unfold d_content, e_content, v_content. apply Forall_firstn, all_nth. eapply named_run; [exact F| |exact E].
    cbn. repeat constructor.
  Qed.
End Named.

Lemma heap_poke X h a grow ps D :
  reachable X h -> has (w_arr (view h)) a -> Forall (names (ok_value_handle (view h))) ps -> p_run grow ps p_new = Some D ->
  let h' := upd h a (CArr (d_content D)) in
  reachable X h' /\ run_call (AArrGetValues a) h' = Ok (OElems (d_content D), h')
  /\ forall cs, ok_calls cs (view h') -> exists os h'', run_calls cs h' = Ok (os, h'')
     /\ run_call (AArrGetValues a) h'' = Ok (OElems (e_content (e_run grow (elem_ops a cs (view h')) (d_array D))), h'').
Proof.
  intros R Ha F E h'. destruct (has_arr_at _ _ Ha) as [l0 E0]. assert (La : a < length h) by (apply nth_error_Some; congruence).
  assert (R' : reachable X h'). { apply reach_poke; auto. eapply named_content; [exact Logic.I|exact F|exact E]. }
  assert (G : run_call (AArrGetValues a) h' = Ok (OElems (d_content D), h')).
  { cbn [run_call]. unfold bind, mlift, arr_GetValues. rewrite (proj2 (rd_arr_iff h' a (d_content D))); [reflexivity|].
    unfold h'. rewrite nth_error_upd, Nat.eqb_refl by auto. reflexivity. }
  split; [exact R'|]. split; [exact G|]. intros cs K. apply (elem_machine X); auto.
  - now apply (view_put h a l0).
  - apply (p_run_valid _ _ _ _ dvalid_new E).
Qed.
