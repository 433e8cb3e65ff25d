(** * Sorting the slice of keys in its backing array *)
From Coq Require Import Ascii String List NArith ZArith Bool Lia Permutation.
From Verif Require Import GoStr StrLemmas Heap MapModel SpecDict DictLemmas SpecWorld KeysSlice SpecKeys KeysFacts OrderModel.
Import ListNotations.
Open Scope nat_scope.

Lemma skipn_twice {A} a b (l : list A) : skipn a (skipn b l) = skipn (a + b) l.
Proof. revert l. induction b as [|b IH]; intros l; [now rewrite Nat.add_0_r|]. rewrite Nat.add_succ_r. destruct l; cbn [skipn]; [apply skipn_nil|apply IH]. Qed.

Lemma k_writes_eq s ks : forall i K, svalid (k_mem K) s -> i + length ks <= s_cap s ->
  let B := nth (s_base s) (k_mem K) [] in
  k_writes s i ks K = KMap (upd (k_mem K) (s_base s) (firstn i B ++ ks ++ skipn (i + length ks) B)) (k_keys K).
Proof.
  induction ks as [|k ks IH]; intros i K (Hb & L & C) Le B; cbn [length] in Le; cbn [k_writes app length].
  - rewrite Nat.add_0_r, firstn_skipn. destruct K as [mem s0]. cbn [k_mem k_keys] in *. f_equal. symmetry.
    unfold B. clear -Hb. revert Hb. generalize (s_base s). induction mem as [|x mem IH]; intros [|n] H; cbn in *; try lia; auto. f_equal. apply IH. lia.
  - assert (Ln : length B = s_cap s) by exact C.
    rewrite IH; unfold k_write; cbn [k_mem k_keys]; rewrite ?nth_upd_same by auto; try lia.
    + fold B. assert (U : forall A (l : list A) n (x y : A), upd (upd l n x) n y = upd l n y).
      { intros A l. induction l; intros [|n] x y; cbn; f_equal; auto. }
      rewrite U. f_equal. f_equal. rewrite (upd_split B i k) by lia.
      rewrite firstn_app, skipn_app, firstn_length, Nat.min_l by lia. replace (S i - i) with 1 by lia.
      replace (S i + length ks - i) with (S (length ks)) by lia.
      rewrite (firstn_all2 (n := S i) (firstn i B)) by (rewrite firstn_length; lia).
      rewrite (skipn_all2 (n := S i + length ks) (firstn i B)) by (rewrite firstn_length; lia).
      change (firstn 1 (k :: skipn (S i) B)) with [k]. change (skipn (S (length ks)) (k :: skipn (S i) B)) with (skipn (length ks) (skipn (S i) B)).
      rewrite skipn_twice. rewrite <- app_assoc. cbn [app]. replace (length ks + S i) with (i + S (length ks)) by lia. reflexivity.
    + unfold svalid. rewrite upd_length, nth_upd_same by auto. fold B. split; [exact Hb|]. split; [exact L|]. now rewrite upd_length.
Qed.

Lemma older_run grow os : forall K t, kvalid K -> older K t -> no_removal grow os K -> older (k_run grow os K) t.
Proof.
  induction os as [|o os IH]; intros K t V O H; cbn; auto. destruct H as [H1 H2].
  pose proof (k_step_valid grow o K V) as V'. apply IH; auto. destruct o as [k|k]; cbn in *.
  - exact (proj1 (proj2 (proj2 (k_set_ok grow k K V)) t O)).
  - now rewrite k_remove_notin.
Qed.

Lemma held_sorted grow before later ks :
  let K := k_run grow before k_new in
  let K2 := k_run grow later K in
  no_removal grow later K -> Permutation (k_content K) ks ->
  let K' := k_writes (k_GetKeys K) 0 ks K2 in
  k_content K' = (if Nat.eqb (s_base (k_GetKeys K)) (s_base (k_keys K2)) then ks ++ skipn (length ks) (k_content K2) else k_content K2)
  /\ Permutation (k_content K2) (k_content K').
Proof.
  intros K K2 NR Pk K'. assert (V : kvalid K) by apply k_run_valid, kvalid_new. assert (V2 : kvalid K2) by (apply k_run_valid; exact V).
  pose proof (older_run grow later K _ V (older_self K V) NR) as O. pose proof (snapshot_keeps grow later K _ V (older_self K V) NR) as Sn.
  fold K2 in O, Sn. unfold k_GetKeys in *. set (s := k_keys K) in *. destruct O as [Vs Ls].
  assert (Lk : length ks = s_len s).
  { rewrite <- (Permutation_length Pk). unfold k_content, content. fold s. destruct V as (B & L & C). fold s in L, C. rewrite firstn_length. lia. }
  pose proof Vs as (Bs & Lc & Cs). pose proof (k_writes_eq s ks 0 K2 Vs ltac:(lia)) as E. cbn zeta in E. fold K' in E. cbn [firstn app Nat.add] in E.
  assert (Ec : k_content K' = (if Nat.eqb (s_base s) (s_base (k_keys K2)) then ks ++ skipn (length ks) (k_content K2) else k_content K2)).
  { rewrite E. unfold k_content, content. cbn [k_mem k_keys]. destruct (Nat.eqb_spec (s_base s) (s_base (k_keys K2))) as [Eb|Nb].
    - rewrite <- Eb, nth_upd_same by auto. specialize (Ls Eb). rewrite firstn_app, (firstn_all2 (n := s_len (k_keys K2)) ks) by lia. f_equal.
      rewrite firstn_skipn_comm. f_equal. f_equal. lia.
    - rewrite nth_upd_other by auto. reflexivity. }
  split; [exact Ec|]. rewrite Ec. destruct (Nat.eqb_spec (s_base s) (s_base (k_keys K2))) as [Eb|Nb]; [|apply Permutation_refl].
  rewrite <- (firstn_skipn (length ks) (k_content K2)) at 1. apply Permutation_app_tail.
  replace (firstn (length ks) (k_content K2)) with (k_content K); [exact Pk|].
  unfold k_content at 1. fold s. rewrite <- Sn. unfold k_content, content. rewrite <- Eb, firstn_firstn. f_equal. specialize (Ls Eb). lia.
Qed.
Lemma sorted_now grow before ks :
  let K := k_run grow before k_new in
  Permutation (k_content K) ks -> k_content (k_writes (k_GetKeys K) 0 ks K) = ks.
Proof.
  intros K Pk. destruct (held_sorted grow before [] ks Logic.I Pk) as [E _]. fold K in E. cbn [k_run] in E. rewrite E.
  unfold k_GetKeys. rewrite Nat.eqb_refl. rewrite <- (Permutation_length Pk). fold K. rewrite skipn_all. apply app_nil_r.
Qed.
Lemma sorted_depends : exists before later ks (g1 g2 : smem -> nat),
  let K g := k_run g before k_new in let K2 g := k_run g later (K g) in
  no_removal g1 later (K g1) /\ no_removal g2 later (K g2) /\ k_content (K g1) = k_content (K g2) /\ k_content (K2 g1) = k_content (K2 g2)
  /\ Permutation (k_content (K g1)) ks
  /\ k_content (k_writes (k_GetKeys (K g1)) 0 ks (K2 g1)) <> k_content (k_writes (k_GetKeys (K g2)) 0 ks (K2 g2)).
Proof.
  exists [KSet (lit "b"); KSet (lit "a")], [KSet (lit "c")], [lit "a"; lit "b"], (fun _ => 0), (fun _ => 8). cbn zeta.
  split; [vm_compute; auto|]. split; [vm_compute; auto|]. split; [vm_compute; reflexivity|]. split; [vm_compute; reflexivity|].
  split; [vm_compute; apply perm_swap|]. vm_compute. discriminate.
Qed.
