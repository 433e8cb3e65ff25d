(** * Facts about copied slices of the elements of an array *)
From Coq Require Import Ascii String List NArith ZArith Bool Lia.
From Verif Require Import GoStr StrLemmas GoNum GoFloat Heap Common ValueModel ArrayModel MapModel
  SpecDict DictLemmas SpecWorld Inv World Reach MapFacts KeysSlice SpecKeys KeysFacts SpecLoop LoopModel LoopFacts ElemSlice SpecElems.
Import ListNotations.
Open Scope nat_scope.

(** ** One step *)
Definition bstep (B : list (option nat)) (n : nat) (o : eop) : option (list (option nat) * nat) :=
  match o with
  | EAppend x => if Nat.ltb n (length B) then Some (list_set B n x, S n) else None
  | ESet i x => Some (if valid_index (firstn n B) i then list_set B (Z.to_nat i) x else B, n)
  | ERemove i =>
      if valid_index (firstn n B) i then Some (list_remove (firstn n B) (Z.to_nat i) ++ skipn (n - 1) B, n - 1) else Some (B, n)
  end.
Lemma seen_step k B n o os : seen k B n (o :: os) = match bstep B n o with Some (B', n') => seen k B' n' os | None => firstn k B end.
Proof. destruct o; cbn [seen bstep]; try destruct (Nat.ltb _ _); try destruct (valid_index _ _); reflexivity. Qed.

Lemma list_set_length {A} (l : list A) n x : length (list_set l n x) = length l.
Proof. rewrite <- upd_list_set. apply upd_length. Qed.
Lemma write_one B n x : n < length B -> write_at B n [x] = list_set B n x.
Proof.
  intros H. unfold write_at. cbn [length]. rewrite Nat.add_1_r, <- upd_list_set, upd_split; auto.
Qed.
Lemma write_rest B n i : i < n -> n <= length B ->
  write_at B i (skipn (S i) (firstn n B)) = list_remove (firstn n B) i ++ skipn (n - 1) B.
Proof.
  intros H L. unfold write_at. rewrite <- remove_nth_list_remove. unfold remove_nth. rewrite <- app_assoc, firstn_firstn.
  replace (Nat.min i n) with i by lia. do 2 f_equal. rewrite skipn_length, firstn_length. f_equal. lia.
Qed.
Lemma remove_length {A} (l : list A) i : i < length l -> length (list_remove l i) = length l - 1.
Proof. intros H. rewrite <- remove_nth_list_remove. unfold remove_nth. rewrite app_length, firstn_length, skipn_length. lia. Qed.

Lemma bstep_ok B n o B' n' : n <= length B -> bstep B n o = Some (B', n') ->
  length B' = length B /\ n' <= length B /\ firstn n' B' = elem_step (firstn n B) o.
Proof.
  intros L E. assert (Lf : length (firstn n B) = n) by (rewrite firstn_length; lia).
  destruct o as [x|i x|i]; cbn [bstep elem_step] in *.
  - destruct (Nat.ltb_spec n (length B)); [|discriminate]. injection E as <- <-. rewrite list_set_length. repeat split; [lia|].
    rewrite <- write_one by auto. unfold write_at. rewrite app_assoc, firstn_app, app_length, Lf. cbn [length].
    replace (S n - (n + 1)) with 0 by lia. rewrite firstn_O, app_nil_r. apply firstn_all2. rewrite app_length. cbn. lia.
  - destruct (valid_index _ _) eqn:V; injection E as <- <-; [rewrite list_set_length|]; repeat split; auto.
    unfold valid_index in V. rewrite Lf in V. assert (Z.to_nat i < n) as Hi by lia. clear V. revert Hi. generalize (Z.to_nat i). intros j Hj.
    clear - Hj. revert n j Hj. induction B as [|b B IH]; intros [|n] [|j] Hj; cbn; auto; try lia. f_equal. apply IH. lia.
  - destruct (valid_index _ _) eqn:V; injection E as <- <-; [|auto]. unfold valid_index in V. rewrite Lf in V.
    assert (Hi : Z.to_nat i < n) by lia. pose proof (remove_length (firstn n B) (Z.to_nat i)) as Lr. rewrite Lf in Lr.
    rewrite app_length, skipn_length, Lr by lia. repeat split; try lia.
    rewrite firstn_app, Lr by lia. rewrite Nat.sub_diag. cbn [firstn]. rewrite app_nil_r. apply firstn_all2. rewrite Lr; lia.
Qed.

Lemma upd_self {A} (l : list A) n d : upd l n (nth n l d) = l.
Proof. revert n. induction l as [|x l IH]; intros [|n]; cbn; auto. now f_equal. Qed.

Lemma e_index_valid E n : evalid E -> e_index E n = valid_index (e_content E) n.
Proof.
  intros (B & L & C). unfold e_index, valid_index, e_content, v_content. rewrite firstn_length.
  destruct (Z.ltb_spec n 0), (Z.leb_spec 0 n); try lia; auto.
  destruct (Z.ltb_spec (Z.of_nat (s_len (e_values E)) - 1) n), (Z.ltb_spec n (Z.of_nat (Nat.min (s_len (e_values E)) (length (nth (s_base (e_values E)) (e_mem E) []))))); try lia; auto.
Qed.

Lemma step_here grow o E B' n' : evalid E ->
  bstep (nth (s_base (e_values E)) (e_mem E) []) (s_len (e_values E)) o = Some (B', n') ->
  e_step grow o E = Elems (upd (e_mem E) (s_base (e_values E)) B') (Slice (s_base (e_values E)) n' (s_cap (e_values E))).
Proof.
  intros V E1. pose proof V as (B & L & C). pose proof (e_index_valid E) as Ix. destruct E as [mem [b n c]]. unfold e_step.
  cbn [e_mem e_values s_base s_len s_cap] in *. unfold e_content, v_content in *. cbn [e_mem e_values s_base s_len s_cap] in *.
  destruct o as [x|i x|i]; cbn [bstep] in E1.
  - unfold v_append. cbn [s_base s_len s_cap length]. destruct (Nat.ltb_spec n (length (nth b mem []))); [|discriminate].
    injection E1 as <- <-. destruct (Nat.leb_spec (n + 1) c); [|lia]. rewrite write_one by auto. now rewrite Nat.add_1_r.
  - rewrite Ix by auto. destruct (valid_index _ i); injection E1 as <- <-; [now rewrite <- upd_list_set|]. now rewrite upd_self.
  - rewrite Ix by auto. destruct (valid_index _ i) eqn:Vi; injection E1 as <- <-; [|now rewrite upd_self].
    unfold valid_index in Vi. rewrite firstn_length, C, Nat.min_l in Vi by exact L. assert (Hi : Z.to_nat i < n) by lia. unfold v_append. cbn [s_base s_len s_cap].
    rewrite skipn_length, firstn_length, C, Nat.min_l by exact L. destruct (Nat.leb_spec (Z.to_nat i + (n - S (Z.to_nat i))) c); [|lia].
    rewrite write_rest by lia. do 2 f_equal. lia.
Qed.
Lemma step_away grow o E : evalid E ->
  bstep (nth (s_base (e_values E)) (e_mem E) []) (s_len (e_values E)) o = None ->
  exists x l c, o = EAppend x /\ e_step grow o E = Elems (e_mem E ++ [l]) (Slice (length (e_mem E)) (S (s_len (e_values E))) c)
    /\ length l = c /\ S (s_len (e_values E)) <= c /\ firstn (S (s_len (e_values E))) l = e_content E ++ [x].
Proof.
  intros V E1. pose proof V as (B & L & C). destruct E as [mem [b n c]]. unfold e_step, e_content, v_content.
  cbn [e_mem e_values s_base s_len s_cap] in *.
  destruct o as [x|i x|i]; cbn [bstep] in E1; [|discriminate|destruct (valid_index _ i); discriminate].
  destruct (Nat.ltb_spec n (length (nth b mem []))); [discriminate|]. unfold v_append. cbn [s_base s_len s_cap length].
  destruct (Nat.leb_spec (n + 1) c); [lia|]. eexists x, _, _. split; [reflexivity|]. split; [now rewrite Nat.add_1_r|].
  assert (Lf : length (firstn n (nth b mem [])) = n) by (rewrite firstn_length; lia).
  unfold v_content. cbn [s_base s_len]. rewrite !app_length, repeat_length, Lf. cbn [length].
  split; [lia|]. split; [lia|]. rewrite app_assoc, firstn_app, app_length, Lf. cbn [length].
  replace (S n - (n + 1)) with 0 by lia. rewrite firstn_O, app_nil_r. apply firstn_all2. rewrite app_length. cbn. lia.
Qed.

Lemma e_step_ok grow o E : evalid E -> evalid (e_step grow o E) /\ e_content (e_step grow o E) = elem_step (e_content E) o.
Proof.
  intros V. pose proof V as (B & L & C).
  destruct (bstep (nth (s_base (e_values E)) (e_mem E) []) (s_len (e_values E)) o) as [[B' n']|] eqn:Q.
  - assert (Ln : s_len (e_values E) <= length (nth (s_base (e_values E)) (e_mem E) [])) by lia.
    destruct (bstep_ok _ _ _ _ _ Ln Q) as (L1 & L2 & F). rewrite (step_here grow o E B' n' V Q).
    unfold evalid, within, e_content, v_content. cbn [e_mem e_values s_base s_len s_cap]. rewrite upd_length, nth_upd_same by auto.
    repeat split; auto; lia.
  - destruct (step_away grow o E V Q) as (x & l & c & -> & -> & L1 & L2 & F).
    unfold evalid, within, e_content, v_content. cbn [e_mem e_values s_base s_len s_cap].
    rewrite app_length, app_nth2, Nat.sub_diag by lia. cbn [nth length]. repeat split; auto. lia.
Qed.

(** ** The slice and a copy of it *)
Lemma other_memory grow os : forall E t, evalid E -> s_base t < length (e_mem E) -> s_base t <> s_base (e_values E) ->
  v_content (e_mem (e_run grow os E)) t = v_content (e_mem E) t.
Proof.
  induction os as [|o os IH]; intros E t V H N; cbn [e_run]; auto. pose proof (e_step_ok grow o E V) as [V1 _].
  destruct (bstep (nth (s_base (e_values E)) (e_mem E) []) (s_len (e_values E)) o) as [[B' n']|] eqn:Q.
  - rewrite (step_here grow o E B' n' V Q) in *. rewrite IH; cbn [e_mem e_values s_base]; auto; [|now rewrite upd_length].
    unfold v_content. now rewrite nth_upd_other by auto.
  - destruct (step_away grow o E V Q) as (x & l & c & -> & E1 & _). rewrite E1 in *.
    rewrite IH; cbn [e_mem e_values s_base]; auto; [|rewrite app_length; cbn; lia|lia].
    unfold v_content. now rewrite app_nth1.
Qed.

Lemma same_memory grow os : forall E t, evalid E -> s_base t = s_base (e_values E) ->
  v_content (e_mem (e_run grow os E)) t = seen (s_len t) (nth (s_base t) (e_mem E) []) (s_len (e_values E)) os.
Proof.
  induction os as [|o os IH]; intros E t V H; [reflexivity|]. rewrite seen_step. cbn [e_run].
  pose proof (e_step_ok grow o E V) as [V1 _]. pose proof V as (B & L & C). rewrite H in *.
  destruct (bstep (nth (s_base (e_values E)) (e_mem E) []) (s_len (e_values E)) o) as [[B' n']|] eqn:Q.
  - rewrite (step_here grow o E B' n' V Q) in *. rewrite IH; cbn [e_mem e_values s_base s_len]; auto.
    rewrite H, nth_upd_same; auto.
  - destruct (step_away grow o E V Q) as (x & l & c & -> & E1 & _). rewrite E1 in *.
    rewrite other_memory; cbn [e_mem e_values s_base]; auto; [|rewrite app_length; cbn; lia|lia].
    unfold v_content. rewrite H. now rewrite app_nth1.
Qed.

Lemma e_run_valid grow os : forall E, evalid E -> evalid (e_run grow os E).
Proof. induction os as [|o os IH]; intros E V; cbn; auto. apply IH, e_step_ok, V. Qed.
Lemma evalid_new : evalid e_new.
Proof. repeat split; cbn; lia. Qed.
Lemma e_run_content grow os : forall E, evalid E -> e_content (e_run grow os E) = fold_left elem_step os (e_content E).
Proof.
  induction os as [|o os IH]; intros E V; cbn; auto. destruct (e_step_ok grow o E V) as [V1 E1]. now rewrite IH, E1.
Qed.

(** ** The machine and the array *)
Lemma elem_op_call a c w : has (w_arr w) a -> a < w_next w ->
  arr_at (snd (spec_call c w)) a = fold_left elem_step (elem_op w a c) (arr_at w a) /\ has (w_arr (snd (spec_call c w))) a.
Proof.
  intros (l & Hl) Na.
  assert (Put : forall (f : nat -> option (list (option nat))) a' l', has f a -> has (put f a' l') a).
  { intros f a' l' (x & Hx). unfold put, has. destruct (Nat.eqb a a'); eauto. }
  assert (Ha : has (w_arr w) a) by (exists l; exact Hl).
  destruct c; cbn [spec_call snd elem_op fold_left]; try (split; [reflexivity|exact Ha]).
  - split; [|now apply Put]. unfold arr_at. cbn. unfold put. destruct (Nat.eqb_spec a (w_next w)); [lia|]. reflexivity.
  - destruct (dict_has _ _); split; auto.
  - split; [|now apply Put]. unfold arr_at. cbn. unfold put. rewrite (Nat.eqb_sym a a0).
    destruct (Nat.eqb_spec a0 a) as [->|N]; reflexivity.
  - split; [|now apply Put]. unfold arr_at. cbn. unfold put. rewrite (Nat.eqb_sym a a0).
    destruct (Nat.eqb_spec a0 a) as [->|N]; reflexivity.
  - destruct (valid_index _ _) eqn:V; cbn [snd]; (split; [|try apply Put; exact Ha]).
    + unfold arr_at. cbn. unfold put. rewrite (Nat.eqb_sym a a0). destruct (Nat.eqb_spec a0 a) as [->|N]; [|reflexivity].
      cbn. unfold arr_at in V. now rewrite V.
    + destruct (Nat.eqb_spec a0 a) as [->|N]; [|reflexivity]. cbn. now rewrite V.
  - destruct (valid_index _ _) eqn:V; cbn [snd]; (split; [|try apply Put; exact Ha]).
    + unfold arr_at. cbn. unfold put. rewrite (Nat.eqb_sym a a0). destruct (Nat.eqb_spec a0 a) as [->|N]; [|reflexivity].
      cbn. unfold arr_at in V. now rewrite V.
    + destruct (Nat.eqb_spec a0 a) as [->|N]; [|reflexivity]. cbn. now rewrite V.
Qed.

Lemma elem_ops_calls a cs : forall h w, Inv h -> impl h w -> ok_calls cs w -> has (w_arr w) a ->
  arr_at (snd (spec_calls cs w)) a = fold_left elem_step (elem_ops a cs w) (arr_at w a) /\ has (w_arr (snd (spec_calls cs w))) a.
Proof.
  induction cs as [|c cs IH]; intros h w I P OK Ha; [split; [reflexivity|exact Ha]|].
  destruct OK as [K1 K2]. destruct (run_call_ok _ _ _ I P K1) as (h1 & E1 & I1 & X1 & P1).
  assert (Na : a < w_next w).
  { destruct Ha as (l & Hl). apply (im_arr _ _ P) in Hl. destruct Hl as [Hc _]. rewrite (im_next _ _ P). apply nth_error_Some. congruence. }
  destruct (elem_op_call a c w Ha Na) as [S1 S2]. cbn [spec_calls elem_ops]. rewrite fold_left_app, <- S1.
  destruct (spec_call c w) as [o w1]. cbn [snd] in *. destruct (IH h1 w1 I1 P1 K2 S2) as [Q1 Q2].
  destruct (spec_calls cs w1) as [os w2]. cbn [snd] in *. auto.
Qed.

Lemma elem_machine X h a cs grow E :
  reachable X h -> has (w_arr (view h)) a -> ok_calls cs (view h) ->
  evalid E -> run_call (AArrGetValues a) h = Ok (OElems (e_content E), h) ->
  exists os h', run_calls cs h = Ok (os, h')
    /\ run_call (AArrGetValues a) h' = Ok (OElems (e_content (e_run grow (elem_ops a cs (view h)) E)), h').
Proof.
  intros R Ha OK V G. pose proof (reachable_Inv _ _ R) as I. pose proof (view_impl _ I) as P.
  destruct (run_calls_ok cs h (view h) I P OK) as (h' & E1 & I' & _ & P'). exists (fst (spec_calls cs (view h))), h'.
  split; [exact E1|]. destruct (elem_ops_calls a cs h (view h) I P OK Ha) as [Q1 (l' & Hl')].
  rewrite e_run_content by auto. apply arr_read in G. apply arr_read.
  destruct Ha as (l & Hl). pose proof (proj1 (im_arr _ _ P _ _) Hl) as [Hc _]. apply rd_arr_iff in Hc.
  assert (E2 : l = e_content E) by congruence. unfold arr_at in Q1. rewrite Hl, Hl' in Q1. cbn in Q1. subst l l'.
  apply rd_arr_iff. exact (proj1 (proj1 (im_arr _ _ P' _ _) Hl')).
Qed.

(** ** What a copied slice shows *)
Lemma list_set_split {A} (a : list A) x b y : list_set (a ++ x :: b) (length a) y = a ++ y :: b.
Proof. induction a; cbn; congruence. Qed.

Section Held.
  Variable grow : vmem -> nat.
  Variable before : list eop.
  Let E := e_run grow before e_new.
  Let s := e_values E.
  Let B := nth (s_base s) (e_mem E) [].

  Lemma E_valid : evalid E.
  Proof. apply e_run_valid, evalid_new. Qed.
  Lemma E_len : length (e_content E) = s_len s.
  Proof. destruct E_valid as (_ & L & C). unfold e_content, v_content. rewrite firstn_length. unfold s. lia. Qed.

  Lemma held_exact after : v_content (e_mem (e_run grow after E)) s = seen (length (e_content E)) B (length (e_content E)) after.
  Proof. rewrite E_len. apply same_memory; [apply E_valid|reflexivity]. Qed.

  Lemma held_appended after : appends after -> v_content (e_mem (e_run grow after E)) s = e_content E.
  Proof.
    intros A. rewrite held_exact. rewrite E_len. change (e_content E) with (firstn (s_len s) B).
    assert (G : forall n C, s_len s <= n -> firstn (s_len s) C = firstn (s_len s) B -> seen (s_len s) C n after = firstn (s_len s) B).
    { induction A as [|o t (x & ->) A IH]; intros n C L F; [exact F|]. rewrite seen_step. cbn [bstep].
      destruct (Nat.ltb_spec n (length C)); [|exact F]. apply IH; [lia|]. rewrite <- F. rewrite <- write_one by auto. unfold write_at.
      rewrite firstn_app, firstn_firstn, firstn_length. replace (s_len s - Nat.min n (length C)) with 0 by lia.
      rewrite firstn_O, app_nil_r. f_equal. lia. }
    apply G; auto.
  Qed.

  Lemma held_set after : Forall (fun o => exists n x, o = ESet n x) after ->
    v_content (e_mem (e_run grow after E)) s = e_content (e_run grow after E).
  Proof.
    intros A. rewrite held_exact, e_run_content by apply E_valid. rewrite E_len. change (e_content E) with (firstn (s_len s) B).
    assert (L : s_len s <= length B).
    { destruct E_valid as (_ & L & C). fold s in L, C. fold B in C. rewrite C. exact L. }
    assert (G : forall k C, k <= length C -> seen k C k after = fold_left elem_step after (firstn k C)).
    { clear L. induction A as [|o t (n & x & ->) A IH]; intros k C L; [reflexivity|].
      rewrite seen_step. cbn [bstep fold_left].
      destruct (bstep_ok C k (ESet n x) _ _ L eq_refl) as (L1 & _ & F). rewrite IH by lia. now rewrite F. }
    now apply G.
  Qed.

  Lemma held_removed l1 x l2 : e_content E = l1 ++ x :: l2 ->
    v_content (e_mem (e_run grow [ERemove (Z.of_nat (length l1))] E)) s = l1 ++ l2 ++ [last l2 x]
    /\ forall y, v_content (e_mem (e_run grow [ERemove (Z.of_nat (length l1)); EAppend y] E)) s = l1 ++ l2 ++ [y].
  Proof.
    intros C. pose proof E_len as Ln. assert (Lb : s_len s <= length B) by (destruct E_valid as (_ & L & Q); fold s in L, Q; fold B in Q; rewrite Q; exact L).
    assert (F : firstn (s_len s) B = l1 ++ x :: l2) by (rewrite <- C; reflexivity).
    assert (Lc : length (l1 ++ x :: l2) = s_len s) by (now rewrite <- C).
    assert (Vi : valid_index (firstn (s_len s) B) (Z.of_nat (length l1)) = true).
    { unfold valid_index. rewrite F, app_length. cbn [length]. apply andb_true_intro; split; [apply Z.leb_le|apply Z.ltb_lt]; lia. }
    assert (Rm : list_remove (l1 ++ x :: l2) (length l1) = l1 ++ l2) by (clear; induction l1; cbn; congruence).
    assert (Lc' : length l1 + S (length l2) = s_len s) by (rewrite <- Lc, app_length; reflexivity).
    assert (Lr : length (l1 ++ l2) = s_len s - 1) by (rewrite app_length; lia).
    assert (Sk : skipn (s_len s - 1) B = last l2 x :: skipn (s_len s) B).
    { rewrite <- (firstn_skipn (s_len s) B) at 1. rewrite F, skipn_app, Lc. replace (s_len s - 1 - s_len s) with 0 by lia. cbn [skipn].
      rewrite skipn_app, skipn_all2 by lia.
      replace (s_len s - 1 - length l1) with (length l2) by lia. cbn [app].
      now rewrite skip_last. }
    assert (Ps : 0 < s_len s) by lia.
    split.
    - rewrite held_exact, Ln. cbn [seen]. rewrite Vi, F, Nat2Z.id, Rm, Sk.
      rewrite firstn_app, Lr. replace (s_len s - (s_len s - 1)) with 1 by lia. cbn [firstn].
      rewrite firstn_all2 by lia. now rewrite <- app_assoc.
    - intros y. rewrite held_exact, Ln. cbn [seen]. rewrite Vi, F, Nat2Z.id, Rm, Sk.
      rewrite app_length, Lr. cbn [length]. destruct (Nat.ltb_spec (s_len s - 1) (s_len s - 1 + S (length (skipn (s_len s) B)))); [|lia].
      rewrite <- Lr at 1. rewrite list_set_split. rewrite firstn_app, Lr. replace (s_len s - (s_len s - 1)) with 1 by lia.
      cbn [app firstn]. rewrite firstn_all2 by lia. now rewrite <- app_assoc.
  Qed.

  Lemma held_left xs after : s_cap s < length (e_content E) + length xs ->
    v_content (e_mem (e_run grow (map EAppend xs ++ after) E)) s = e_content E.
  Proof.
    intros H. rewrite held_exact. rewrite E_len in *. change (e_content E) with (firstn (s_len s) B).
    assert (Lb : length B = s_cap s) by (destruct E_valid as (_ & L & Q); exact Q). rewrite <- Lb in H.
    assert (G : forall xs n C, length C = length B -> length C < n + length xs -> s_len s <= n -> n <= length C ->
      firstn (s_len s) C = firstn (s_len s) B -> seen (s_len s) C n (map EAppend xs ++ after) = firstn (s_len s) B).
    { clear xs H. induction xs as [|x xs IH]; intros n C LC H L1 L2 F; [cbn in H; lia|]. cbn [map app seen].
      destruct (Nat.ltb_spec n (length C)); [|exact F]. cbn [length] in H. rewrite IH; auto; try (rewrite list_set_length; lia); try lia.
      rewrite <- F. rewrite <- write_one by auto. unfold write_at.
      rewrite firstn_app, firstn_firstn, firstn_length. replace (s_len s - Nat.min n (length C)) with 0 by lia.
      rewrite firstn_O, app_nil_r. f_equal. lia. }
    apply G; auto. destruct E_valid as (_ & L & Q). fold s in L. lia.
  Qed.
End Held.

(** ** The loop *)
Lemma past grow p t n : forall i E, evalid E -> s_len (e_values E) <= i -> snd (range_elems grow p t i n E) = E.
Proof.
  induction n as [|n IH]; intros i E V L; cbn [range_elems]; auto.
  assert (N : e_step grow (ERemove (Z.of_nat i)) E = E).
  { cbn. unfold e_index. destruct (Z.ltb_spec (Z.of_nat i) 0); [lia|]. destruct (Z.ltb_spec (Z.of_nat (s_len (e_values E)) - 1) (Z.of_nat i)); [|lia].
    reflexivity. }
  rewrite N. specialize (IH (S i) E V). destruct (p _); [|apply IH; lia].
  destruct (range_elems grow p t (S i) n E) as [is E']. cbn in *. apply IH. lia.
Qed.

Lemma elem_rounds grow p t n : forall i E d r,
  evalid E -> s_base t = s_base (e_values E) -> s_len (e_values E) <= s_len t -> s_len t = i + n ->
  e_content E = d ++ r -> length d = i ->
  e_content (snd (range_elems grow p t i n E)) = d ++ skips p r.
Proof.
  induction n as [|n IH]; intros i E d r V Bt Lt Ln C Ld.
  - assert (L : length (e_content E) = s_len (e_values E)).
    { destruct V as (_ & L & Q). unfold e_content, v_content. rewrite firstn_length. lia. }
    rewrite C, app_length in L. destruct r; [exact C|cbn in L; lia].
  - assert (L : length (e_content E) = s_len (e_values E)).
    { destruct V as (_ & L & Q). unfold e_content, v_content. rewrite firstn_length. lia. }
    rewrite C, app_length in L. destruct r as [|x r].
    { cbn [skips]. rewrite past; auto. cbn in L. lia. }
    cbn [length] in L. cbn [range_elems skips].
    assert (Hx : nth i (v_content (e_mem E) t) None = x).
    { unfold e_content, v_content in *. rewrite Bt.
      assert (N : nth i (d ++ x :: r) None = x) by (rewrite app_nth2 by lia; now rewrite <- Ld, Nat.sub_diag).
      rewrite <- C in N. rewrite <- N. clear - Lt L Ld. revert L Lt. generalize (nth (s_base (e_values E)) (e_mem E) []). intros B0 L Lt.
      assert (Q : i < s_len (e_values E)) by lia. revert Q Lt. generalize (s_len (e_values E)) (s_len t). clear.
      revert i. induction B0 as [|b B0 IH]; intros i k m H1 H2; [now rewrite !firstn_nil|].
      destruct k, m; try lia. destruct i; cbn; auto. apply IH; lia. }
    rewrite Hx. destruct (p x) eqn:Px.
    + destruct (e_step_ok grow (ERemove (Z.of_nat i)) E V) as [V1 C1].
      assert (Vi : valid_index (d ++ x :: r) (Z.of_nat i) = true).
      { unfold valid_index. rewrite app_length. cbn [length]. apply andb_true_intro; split; [apply Z.leb_le|apply Z.ltb_lt]; lia. }
      cbn [elem_step] in C1. rewrite C, Vi, Nat2Z.id in C1. rewrite <- Ld in C1 at 2. rewrite list_remove_split in C1.
      assert (Q : bstep (nth (s_base (e_values E)) (e_mem E) []) (s_len (e_values E)) (ERemove (Z.of_nat i)) <> None).
      { cbn [bstep]. intros Q. destruct (valid_index _ _) in Q; discriminate Q. }
      destruct (bstep _ _ _) as [[B' n']|] eqn:Q1; [|congruence]. pose proof (step_here grow _ E B' n' V Q1) as St.
      assert (B1 : s_base (e_values (e_step grow (ERemove (Z.of_nat i)) E)) = s_base (e_values E)) by now rewrite St.
      assert (L1 : length (e_content (e_step grow (ERemove (Z.of_nat i)) E)) = s_len (e_values (e_step grow (ERemove (Z.of_nat i)) E))).
      { destruct V1 as (_ & L1 & Q2). unfold e_content, v_content. rewrite firstn_length. lia. }
      rewrite C1, app_length in L1.
      set (E1 := e_step grow (ERemove (Z.of_nat i)) E) in *. clearbody E1.
      destruct (range_elems grow p t (S i) n E1) as [is E2] eqn:Qr. cbn [snd].
      replace E2 with (snd (range_elems grow p t (S i) n E1)) by now rewrite Qr. clear Qr.
      destruct r as [|y r].
      * rewrite past; auto. cbn [length] in L1. lia.
      * cbn [length] in *. rewrite (IH (S i) E1 (d ++ [y]) r); auto; try congruence; try lia.
        -- now rewrite <- app_assoc.
        -- now rewrite C1, <- app_assoc.
        -- rewrite app_length. cbn. lia.
    + rewrite (IH (S i) E (d ++ [x]) r); auto; try lia.
      * now rewrite <- app_assoc.
      * now rewrite C, <- app_assoc.
      * rewrite app_length. cbn. lia.
Qed.

Lemma elem_loop_content grow p E : evalid E -> e_content (snd (elem_loop grow p E)) = skips p (e_content E).
Proof. intros V. unfold elem_loop. now rewrite (elem_rounds grow p (e_values E) _ 0 E [] (e_content E)). Qed.

Lemma elem_range_run grow p t n : forall i E,
  snd (range_elems grow p t i n E) = e_run grow (map (fun j => ERemove (Z.of_nat j)) (fst (range_elems grow p t i n E))) E.
Proof.
  induction n as [|n IH]; intros i E; cbn [range_elems]; auto. destruct (p _); auto.
  specialize (IH (S i) (e_step grow (ERemove (Z.of_nat i)) E)).
  destruct (range_elems grow p t (S i) n _) as [ks K']. cbn in *. exact IH.
Qed.

Lemma at_once_step l i : at_once l i = elem_step l (ERemove (Z.of_nat i)).
Proof.
  unfold at_once. cbn [elem_step]. rewrite Nat2Z.id. unfold valid_index.
  destruct (Nat.ltb_spec i (length l)); [rewrite remove_nth_list_remove|].
  - replace ((0 <=? Z.of_nat i)%Z && (Z.of_nat i <? Z.of_nat (length l))%Z) with true by (symmetry; apply andb_true_intro; split; [apply Z.leb_le|apply Z.ltb_lt]; lia). reflexivity.
  - replace ((0 <=? Z.of_nat i)%Z && (Z.of_nat i <? Z.of_nat (length l))%Z) with false by (symmetry; apply andb_false_intro2, Z.ltb_ge; lia). reflexivity.
Qed.
Lemma at_once_steps is : forall l, fold_left at_once is l = fold_left elem_step (map (fun j => ERemove (Z.of_nat j)) is) l.
Proof. induction is as [|i is IH]; intros l; cbn [fold_left map]; auto. now rewrite at_once_step. Qed.

Lemma elem_loop_calls grow p E h a :
  evalid E -> run_call (AArrGetValues a) h = Ok (OElems (e_content E), h) ->
  exists os h', run_calls (removes_at a (fst (elem_loop grow p E))) h = Ok (os, h')
    /\ run_call (AArrGetValues a) h' = Ok (OElems (skips p (e_content E)), h').
Proof.
  intros V G. apply arr_read in G. destruct (arr_removes (fst (elem_loop grow p E)) h a _ G) as (os & h' & E1 & G').
  exists os, h'. split; auto. apply arr_read. rewrite G', at_once_steps. f_equal.
  rewrite <- (e_run_content grow) by auto. unfold elem_loop at 1. rewrite <- elem_range_run.
  now apply elem_loop_content.
Qed.

Lemma skips_two {A} (p : A -> bool) n : forall l, length l <= n ->
  (apart p l -> skips p l = filter (fun k => negb (p k)) l)
  /\ (skips p l = filter (fun k => negb (p k)) l -> apart p l)
  /\ length (filter (fun k => negb (p k)) l) <= length (skips p l).
Proof.
  induction n as [|n IH]; intros [|x t] L; cbn [length] in L; try lia; try (cbn; auto; fail).
  assert (Lt : length t <= n) by lia. destruct (IH t Lt) as (I1 & I2 & I3).
  cbn [skips filter apart]. destruct (p x) eqn:P; cbn [negb].
  - destruct t as [|y t]; [cbn; auto|].
    cbn [length] in *. assert (L2 : length t <= n) by lia. destruct (IH _ L2) as (J1 & J2 & J3). cbn [filter].
    split; [|split].
    + intros [S1 S2]. assert (Py : p y = false) by (destruct (p y); auto; exfalso; apply S1; auto).
      rewrite Py. cbn [negb]. f_equal. apply J1. exact (proj2 S2).
    + intros E. destruct (p y) eqn:Py; cbn [negb] in E.
      * exfalso. apply (f_equal (@length A)) in E. cbn [length] in E. lia.
      * injection E as E. split; [intros [_ C]; congruence|]. split; [|now apply J2]. destruct t; auto. intros [C _]. congruence.
    + cbn [length]. destruct (p y); cbn [negb length]; lia.
  - cbn [length]. split; [|split; [|lia]].
    + intros [_ S2]. f_equal. auto.
    + intros E. injection E as E. split; auto. destruct t as [|y t]; auto. intros [C _]. congruence.
Qed.
Lemma skips_right {A} (p : A -> bool) l : skips p l = filter (fun k => negb (p k)) l <-> apart p l.
Proof. destruct (skips_two p (length l) l (le_n _)) as (H1 & H2 & _). split; auto. Qed.

Lemma held_depends : exists before after (g1 g2 : vmem -> nat),
  e_content (e_run g1 before e_new) = e_content (e_run g2 before e_new)
  /\ e_content (e_run g1 after (e_run g1 before e_new)) = e_content (e_run g2 after (e_run g2 before e_new))
  /\ v_content (e_mem (e_run g1 after (e_run g1 before e_new))) (e_values (e_run g1 before e_new))
     <> v_content (e_mem (e_run g2 after (e_run g2 before e_new))) (e_values (e_run g2 before e_new)).
Proof.
  exists [EAppend (Some 0)], [EAppend None; ESet 0 (Some 1)], (fun _ => 0), (fun _ => 8).
  repeat split; vm_compute; discriminate.
Qed.
