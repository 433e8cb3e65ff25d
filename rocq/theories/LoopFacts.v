(** * Facts about loops that remove *)
From Coq Require Import Ascii String List NArith ZArith Bool Lia.
From Verif Require Import GoStr StrLemmas GoNum GoFloat Heap Common ValueModel ArrayModel MapModel
  SpecDict DictLemmas SpecWorld Inv World Reach MapFacts KeysSlice SpecKeys KeysFacts
  SpecLoop LoopModel.
Import ListNotations.

Lemma skip_last {A} (b : list A) k : skipn (length b) (k :: b) = [last b k].
Proof.
  revert k. induction b as [|x b IH]; intros k; [reflexivity|].
  cbn [length]. change (skipn (S (length b)) (k :: x :: b)) with (skipn (length b) (x :: b)). rewrite IH.
  destruct b; [reflexivity|]. f_equal. cbn [last]. clear. revert a. induction b as [|y b IHb]; intros a; auto.
  cbn [last] in *. destruct b; auto.
Qed.

(** A longer slice of the same backing array, after a removal. *)
Lemma remove_seen grow k K t a b r :
  kvalid K -> svalid (k_mem K) t -> s_base t = s_base (k_keys K) ->
  k_content K = a ++ k :: b -> ~ In k a -> content (k_mem K) t = a ++ k :: b ++ r ->
  svalid (k_mem (k_remove grow k K)) t
  /\ content (k_mem (k_remove grow k K)) t = a ++ b ++ last b k :: r.
Proof.
  intros V Vt Bt E N Et. unfold k_remove.
  assert (Fi : find_index k (k_content K) = Some (length a)).
  { rewrite E. clear - N. induction a as [|x a IH]; cbn.
    - now rewrite str_eqb_refl.
    - destruct (str_eqb x k) eqn:Q; [apply str_eqb_eq in Q; subst; exfalso; apply N; now left|].
      rewrite IH; auto. intros I. apply N. now right. }
  rewrite Fi.
  assert (Sk : skipn (S (length a)) (k_content K) = b).
  { rewrite E. rewrite skipn_app, skipn_all2 by lia. replace (S (length a) - length a) with 1 by lia. reflexivity. }
  rewrite Sk.
  assert (Ln : s_len (k_keys K) = length a + S (length b)).
  { pose proof (content_length _ _ V) as CL. unfold k_content in E. rewrite E, app_length in CL. cbn in CL. lia. }
  pose proof (content_length _ _ Vt) as Lt. rewrite Et in Lt. rewrite app_length in Lt. cbn [length] in Lt. rewrite app_length in Lt.
  pose proof V as (B & L & C). pose proof Vt as (B' & L' & C'). rewrite Bt in B', C'.
  unfold go_append. cbn [s_base s_len s_cap].
  destruct (Nat.leb_spec (length a + length b) (s_cap (k_keys K))) as [F|F]; [|lia].
  unfold content in Et. rewrite Bt in Et.
  set (l := nth (s_base (k_keys K)) (k_mem K) []) in *.
  assert (W : overwrite l (length a) b = a ++ b ++ last b k :: r ++ skipn (s_len t) l).
  { rewrite overwrite_spec by lia. rewrite <- (firstn_skipn (s_len t) l) at 1 2. rewrite Et.
    rewrite <- !app_assoc. cbn [app]. rewrite firstn_app, Nat.sub_diag, firstn_all. cbn [firstn]. rewrite app_nil_r. f_equal. f_equal.
    rewrite skipn_app, skipn_all2 by lia. replace (length a + length b - length a) with (length b) by lia. cbn [app].
    rewrite <- app_assoc. change (k :: b ++ r ++ skipn (s_len t) l) with ((k :: b) ++ r ++ skipn (s_len t) l).
    rewrite skipn_app, skip_last. cbn [length]. replace (length b - S (length b)) with 0 by lia. reflexivity. }
  split.
  - split; [|split]; cbn [k_mem]; [rewrite upd_length, Bt; exact B|exact L'|]. rewrite Bt.
    rewrite nth_upd_same by auto. rewrite W, !app_length. cbn [length]. rewrite app_length, skipn_length. lia.
  - unfold content. cbn [k_mem]. rewrite Bt, nth_upd_same by auto. rewrite W.
    replace (a ++ b ++ last b k :: r ++ skipn (s_len t) l) with ((a ++ b ++ last b k :: r) ++ skipn (s_len t) l)
      by (rewrite <- !app_assoc; reflexivity).
    assert (Lw : length (a ++ b ++ last b k :: r) = s_len t) by (rewrite !app_length; cbn [length]; lia).
    rewrite firstn_app, Lw, Nat.sub_diag. cbn [firstn]. rewrite app_nil_r. rewrite <- Lw. apply firstn_all.
Qed.

(** The rounds that only see the last key, which is there or not. *)
Lemma tail_rounds grow p t z n : forall i K d,
  kvalid K -> k_content K = d -> ~ In z d ->
  (forall j, i <= j < i + n -> nth j (content (k_mem K) t) [] = z) ->
  k_content (snd (range_remove grow p t i n K)) = d.
Proof.
  induction n as [|n IH]; intros i K d V E N A; cbn [range_remove]; auto.
  rewrite (A i) by lia. destruct (p z).
  - rewrite (k_remove_notin grow z K) by now rewrite E.
    destruct (range_remove grow p t (S i) n K) as [ks K'] eqn:Q. cbn [snd].
    specialize (IH (S i) K d V E N). rewrite Q in IH. apply IH. intros j Hj. apply A. lia.
  - apply IH; auto. intros j Hj. apply A. lia.
Qed.
Lemma tail_kept grow p t z n : forall i K,
  p z = false -> (forall j, i <= j < i + n -> nth j (content (k_mem K) t) [] = z) -> snd (range_remove grow p t i n K) = K.
Proof.
  induction n as [|n IH]; intros i K P A; cbn [range_remove]; auto.
  rewrite (A i), P by lia. apply IH; auto. intros j Hj. apply A. lia.
Qed.

Lemma nth_rep {A} (l : list A) z m d j : length l <= j < length l + m -> nth j (l ++ repeat z m) d = z.
Proof.
  intros H. rewrite app_nth2 by lia. assert (E : forall m i, i < m -> nth i (repeat z m) d = z).
  { clear. induction m; intros [|i] H; cbn; auto; try lia. apply IHm. lia. }
  apply E. lia.
Qed.
Lemma last_cons {A} (x : A) r y : last (x :: r) y = last r x.
Proof. revert x y. induction r as [|a r IH]; intros x y; auto. change (last (x :: a :: r) y) with (last (a :: r) y). now rewrite !IH. Qed.

Lemma rounds grow p t z n : forall i K d r m,
  kvalid K -> svalid (k_mem K) t -> s_base t = s_base (k_keys K) ->
  k_content K = d ++ r -> NoDup (d ++ r) -> length d = i -> content (k_mem K) t = (d ++ r) ++ repeat z m ->
  r <> [] -> last r z = z -> n = length r + m ->
  k_content (snd (range_remove grow p t i n K)) = d ++ leftover p r.
Proof.
  induction n as [|n IH]; intros i K d r m V Vt Bt E ND Ld Et Nr Lz Hn; destruct r as [|x r]; try congruence; cbn [length] in Hn; try lia.
  cbn [range_remove]. rewrite last_cons in Lz.
  assert (Hx : nth i (content (k_mem K) t) [] = x).
  { rewrite Et, <- app_assoc, app_nth2 by lia. rewrite <- Ld, Nat.sub_diag. reflexivity. }
  rewrite Hx. cbn [leftover].
  destruct (p x) eqn:P.
  - assert (Nx : ~ In x d).
    { apply NoDup_remove_2 in ND. intros I. apply ND. apply in_or_app. auto. }
    destruct (k_remove_in grow x K d r V E Nx) as (V1 & E1 & _ & B1 & _).
    destruct (remove_seen grow x K t d r (repeat z m) V Vt Bt E Nx) as (Vt1 & Et1).
    { rewrite Et, <- app_assoc. reflexivity. }
    rewrite Lz in Et1. change (z :: repeat z m) with (repeat z (S m)) in Et1. rewrite app_assoc in Et1.
    apply NoDup_remove_1 in ND.
    set (K1 := k_remove grow x K) in *. clearbody K1.
    destruct (range_remove grow p t (S i) n K1) as [ks K2] eqn:Q. cbn [snd].
    replace K2 with (snd (range_remove grow p t (S i) n K1)) by now rewrite Q. clear Q.
    destruct r as [|y [|y2 r]].
    + rewrite app_nil_r in *. cbn in Lz. subst x. apply (tail_rounds grow p t z n (S i) K1 d); auto.
      intros j Hj. rewrite Et1. apply nth_rep. cbn [length] in Hn. lia.
    + cbn in Lz. subst y. cbn [length] in Hn. assert (n = S m) as -> by lia. cbn [range_remove].
      assert (Hz : nth (S i) (content (k_mem K1) t) [] = z).
      { rewrite Et1. apply nth_rep. rewrite app_length. cbn [length]. lia. }
      rewrite Hz. destruct (p z) eqn:Pz.
      * assert (Nz : ~ In z d) by (apply NoDup_remove_2 in ND; now rewrite app_nil_r in ND).
        assert (Bt1 : s_base t = s_base (k_keys K1)) by congruence.
        destruct (k_remove_in grow z K1 d [] V1 E1 Nz) as (V2 & E2 & _).
        destruct (remove_seen grow z K1 t d [] (repeat z (S m)) V1 Vt1 Bt1 E1 Nz) as (_ & Et2).
        { rewrite Et1, <- app_assoc. reflexivity. }
        rewrite app_nil_r in E2. cbn [app last] in Et2.
        set (K3 := k_remove grow z K1) in *. clearbody K3.
        destruct (range_remove grow p t (S (S i)) m K3) as [ks' K4] eqn:Q. cbn [snd].
        replace K4 with (snd (range_remove grow p t (S (S i)) m K3)) by now rewrite Q.
        rewrite app_nil_r. apply (tail_rounds grow p t z m (S (S i)) K3 d); auto.
        intros j Hj. rewrite Et2. change (z :: repeat z (S m)) with (repeat z (S (S m))). apply nth_rep. lia.
      * rewrite (tail_kept grow p t z m (S (S i)) K1); auto.
        intros j Hj. rewrite Et1. apply nth_rep. rewrite app_length. cbn [length]. lia.
    + rewrite (IH (S i) K1 (d ++ [y]) (y2 :: r) (S m)); auto.
      * rewrite <- app_assoc. reflexivity.
      * congruence.
      * rewrite E1, <- app_assoc. reflexivity.
      * rewrite <- app_assoc. exact ND.
      * rewrite app_length. cbn. lia.
      * rewrite Et1, <- (app_assoc d [y]). reflexivity.
      * discriminate.
      * rewrite last_cons. rewrite ?last_cons in Lz. exact Lz.
      * cbn [length] in *. lia.
  - destruct r as [|y r].
    + cbn in Lz. subst x. cbn [leftover]. rewrite (tail_kept grow p t z n (S i) K); auto.
      intros j Hj. rewrite Et. apply nth_rep. rewrite app_length. cbn [length] in *. lia.
    + rewrite (IH (S i) K (d ++ [x]) (y :: r) m); auto.
      * rewrite <- app_assoc. reflexivity.
      * rewrite E, <- app_assoc. reflexivity.
      * rewrite <- app_assoc. exact ND.
      * rewrite app_length. cbn. lia.
      * rewrite Et, <- (app_assoc d [x]). reflexivity.
      * discriminate.
      * rewrite ?last_cons. rewrite ?last_cons in Lz. exact Lz.
Qed.

Lemma run_NoDup grow os : NoDup (k_content (k_run grow os k_new)).
Proof.
  assert (G : forall K, kvalid K -> NoDup (k_content K) -> NoDup (k_content (k_run grow os K))).
  { induction os as [|o os IH]; intros K V N; cbn; auto. apply IH; [now apply k_step_valid|].
    destruct o as [k|k]; cbn.
    - rewrite (proj1 (proj2 (k_set_ok grow k K V))). destruct (in_dec _ _ _) as [I|I]; auto.
      apply NoDup_rev in N. rewrite <- (rev_involutive (_ ++ _)). apply NoDup_rev. rewrite rev_app_distr. cbn. constructor; auto.
      now rewrite <- in_rev.
    - destruct (in_dec (list_eq_dec ascii_dec) k (k_content K)) as [I|I]; [|now rewrite k_remove_notin].
      destruct (in_first (list_eq_dec ascii_dec) k _ I) as (a & b & E & Na).
      rewrite (proj1 (proj2 (k_remove_in grow k K a b V E Na))). rewrite E in N. now apply NoDup_remove_1 in N. }
  apply G; [apply kvalid_new|constructor].
Qed.

Lemma loop_keys grow p before :
  let K := k_run grow before k_new in k_content (snd (loop grow p K)) = leftover p (k_content K).
Proof.
  intros K. assert (V : kvalid K) by apply k_run_valid, kvalid_new. unfold loop, k_GetKeys.
  destruct (k_content K) as [|x l] eqn:E.
  - pose proof (content_length _ _ V) as L. unfold k_content in E. rewrite E in L. cbn in L. rewrite <- L. exact E.
  - rewrite (rounds grow p (k_keys K) (last l x) (s_len (k_keys K)) 0 K [] (x :: l) 0); auto.
    + cbn [app]. rewrite <- E. apply run_NoDup.
    + rewrite app_nil_r. exact E.
    + discriminate.
    + apply last_cons.
    + rewrite <- (content_length _ _ V). unfold k_content in E. rewrite E. lia.
Qed.

Lemma range_run grow p t n : forall i K, snd (range_remove grow p t i n K) = k_run grow (map KRemove (fst (range_remove grow p t i n K))) K.
Proof.
  induction n as [|n IH]; intros i K; cbn [range_remove]; auto. destruct (p _); auto.
  specialize (IH (S i) (k_remove grow (nth i (content (k_mem K) t) []) K)).
  destruct (range_remove grow p t (S i) n _) as [ks K']. cbn in *. exact IH.
Qed.
Lemma key_ops_removes m ks : key_ops m (map (AMapRemoveKey m) ks) = map KRemove ks.
Proof. unfold key_ops. induction ks; cbn; auto. rewrite Nat.eqb_refl. cbn. now f_equal. Qed.
Lemma removes_ok m ks : forall w, has (w_map w) m -> ok_calls (map (AMapRemoveKey m) ks) w.
Proof.
  induction ks as [|k ks IH]; intros w H; cbn [map ok_calls]; auto. split; [exact H|]. apply IH. now apply has_map_call.
Qed.

Lemma loop_removes X h m grow before p :
  let K := k_run grow before k_new in
  reachable X h -> has (w_map (view h)) m -> run_call (AMapGetKeys m) h = Ok (OKeys (k_content K), h) ->
  exists os h', run_calls (map (AMapRemoveKey m) (fst (loop grow p K))) h = Ok (os, h')
    /\ k_content (snd (loop grow p K)) = leftover p (k_content K)
    /\ run_call (AMapGetKeys m) h' = Ok (OKeys (leftover p (k_content K)), h').
Proof.
  intros K R Hm G. assert (V : kvalid K) by apply k_run_valid, kvalid_new.
  destruct (keys_machine X h m (map (AMapRemoveKey m) (fst (loop grow p K))) grow K R Hm (removes_ok _ _ _ Hm) V G) as (os & h' & E & E').
  exists os, h'. split; auto. split; [apply loop_keys|]. rewrite E', key_ops_removes. unfold loop at 1. rewrite <- range_run.
  change (range_remove grow p (k_GetKeys K) 0 (s_len (k_GetKeys K)) K) with (loop grow p K). unfold K. now rewrite loop_keys.
Qed.

(** ** What is left *)
Lemma filter_shorter {A} (p : A -> bool) (l : list A) : length (filter p l) <= length l.
Proof. induction l as [|x l IH]; cbn; auto. destruct (p x); cbn; lia. Qed.

Lemma leftover_two {A} (p : A -> bool) n : forall l, length l <= n ->
  (spaced p l -> leftover p l = filter (fun k => negb (p k)) l)
  /\ (leftover p l = filter (fun k => negb (p k)) l -> spaced p l)
  /\ length (filter (fun k => negb (p k)) l) <= length (leftover p l).
Proof.
  induction n as [|n IH]; intros [|x t] L; cbn [length] in L; try lia; try (cbn; auto; fail).
  assert (Lt : length t <= n) by lia. destruct (IH t Lt) as (I1 & I2 & I3).
  cbn [leftover filter spaced]. destruct (p x) eqn:P; cbn [negb].
  - destruct t as [|y [|y2 t]].
    + cbn. auto.
    + cbn [filter spaced]. destruct (p y); cbn; repeat split; auto; lia.
    + cbn [length] in *. assert (L2 : length (y2 :: t) <= n) by (cbn [length]; lia). destruct (IH _ L2) as (J1 & J2 & J3).
      cbn [filter]. split; [|split].
      * intros [S1 S2]. assert (Py : p y = false) by (destruct (p y); auto; exfalso; apply S1; auto).
        rewrite Py. cbn [negb]. f_equal. apply J1. exact (proj2 S2).
      * intros E. destruct (p y) eqn:Py; cbn [negb] in E.
        -- exfalso. cbn [filter] in J3. apply (f_equal (@length A)) in E. cbn [length] in E. cbn [filter] in E. lia.
        -- injection E as E. split; [intros [_ C]; congruence|]. split; [|now apply J2].
           destruct t; auto. intros [C _]. congruence.
      * cbn [length]. cbn [filter] in J3. destruct (p y); cbn [negb length]; lia.
  - cbn [length]. split; [|split; [|lia]].
    + intros [_ S2]. f_equal. auto.
    + intros E. injection E as E. split; auto. destruct t as [|y [|y2 t]]; auto. intros [C _]. congruence.
Qed.
Lemma leftover_right {A} (p : A -> bool) l : leftover p l = filter (fun k => negb (p k)) l <-> spaced p l.
Proof. destruct (leftover_two p (length l) l (le_n _)) as (H1 & H2 & _). split; auto. Qed.

Lemma leftover_all {A} n : forall l : list A, length l <= n -> leftover (fun _ => true) l = every_second (removelast l).
Proof.
  induction n as [|n IH]; intros [|x [|y [|z t]]] L; cbn [length] in L; try lia; auto.
  change (leftover (fun _ => true) (x :: y :: z :: t)) with (y :: leftover (fun _ : A => true) (z :: t)).
  rewrite IH by (cbn [length]; lia). destruct t; reflexivity.
Qed.

Lemma loop_clear X h m grow before :
  let K := k_run grow before k_new in
  reachable X h -> has (w_map (view h)) m -> run_call (AMapGetKeys m) h = Ok (OKeys (k_content K), h) ->
  exists os h', run_calls (map (AMapRemoveKey m) (fst (loop grow (fun _ => true) K))) h = Ok (os, h')
    /\ run_call (AMapGetKeys m) h' = Ok (OKeys (every_second (removelast (k_content K))), h').
Proof.
  intros K R Hm G. destruct (loop_removes X h m grow before (fun _ => true) R Hm G) as (os & h' & E & _ & E').
  exists os, h'. split; auto. now rewrite E', (leftover_all (length (k_content (k_run grow before k_new)))).
Qed.

(** ** The loop over a copy of the keys *)
Lemma copy_keys grow ks : forall K, kvalid K -> NoDup (k_content K) ->
  k_content (k_run grow (map KRemove ks) K)
  = filter (fun k => if in_dec (list_eq_dec ascii_dec) k ks then false else true) (k_content K).
Proof.
  induction ks as [|k ks IH]; intros K V N.
  - cbn [map k_run]. rewrite filter_ext with (g := fun _ => true); [|intros x; destruct (in_dec _ _ _) as [[]|_]; auto].
    induction (k_content K) as [|x l IHl]; cbn; auto. f_equal. apply IHl. now inversion N.
  - cbn [map k_run k_step]. destruct (in_dec (list_eq_dec ascii_dec) k (k_content K)) as [I|I].
    + destruct (in_first (list_eq_dec ascii_dec) k _ I) as (a & b & E & Na).
      destruct (k_remove_in grow k K a b V E Na) as (V1 & E1 & _). rewrite E in N.
      pose proof (NoDup_remove_2 _ _ _ N) as N2. apply NoDup_remove_1 in N.
      rewrite IH; auto; [|now rewrite E1]. rewrite E1, E, !filter_app. cbn [filter].
      destruct (in_dec (list_eq_dec ascii_dec) k (k :: ks)) as [_|C]; [|exfalso; apply C; now left].
      assert (G : forall l, ~ In k l -> filter (fun k0 => if in_dec (list_eq_dec ascii_dec) k0 ks then false else true) l
        = filter (fun k0 => if in_dec (list_eq_dec ascii_dec) k0 (k :: ks) then false else true) l).
      { intros l Hl. apply filter_ext_in. intros x Hx. destruct (in_dec _ x ks) as [J|J], (in_dec _ x (k :: ks)) as [J'|J']; auto.
        - exfalso. apply J'. now right.
        - destruct J' as [->|J']; [exfalso; auto|contradiction]. }
      f_equal; apply G; intros C; apply N2, in_or_app; auto.
    + rewrite k_remove_notin by auto. rewrite IH by auto. apply filter_ext_in. intros x Hx.
      destruct (in_dec _ x ks) as [J|J], (in_dec _ x (k :: ks)) as [J'|J']; auto.
      * exfalso. apply J'. now right.
      * destruct J' as [->|J']; [exfalso; auto|contradiction].
Qed.

Lemma keys_NoDup X h m l : reachable X h -> has (w_map (view h)) m -> run_call (AMapGetKeys m) h = Ok (OKeys l, h) -> NoDup l.
Proof.
  intros R Hm G. destruct (map_observations X h m R Hm) as (ks & vs & E & _ & N & _). rewrite G in E. now inversion E.
Qed.

Lemma copy_removes X h m l p :
  reachable X h -> has (w_map (view h)) m -> run_call (AMapGetKeys m) h = Ok (OKeys l, h) ->
  exists os h', run_calls (map (AMapRemoveKey m) (filter p l)) h = Ok (os, h')
    /\ run_call (AMapGetKeys m) h' = Ok (OKeys (filter (fun k => negb (p k)) l), h').
Proof.
  intros R Hm G.
  assert (N : NoDup l) by (eapply keys_NoDup; eauto).
  set (K := KMap [l] (Slice 0 (length l) (length l))).
  assert (V : kvalid K) by (repeat split; cbn; auto).
  assert (E : k_content K = l) by (unfold k_content, content; cbn; apply firstn_all).
  rewrite <- E in G.
  destruct (keys_machine X h m (map (AMapRemoveKey m) (filter p l)) (fun _ => 0) K R Hm (removes_ok _ _ _ Hm) V G) as (os & h' & E1 & E2).
  exists os, h'. split; auto. rewrite E2, key_ops_removes, copy_keys; auto; [|now rewrite E].
  rewrite E. do 3 f_equal. apply filter_ext_in. intros x Hx. destruct (in_dec _ _ _) as [J|J].
  - apply filter_In in J as [_ ->]. reflexivity.
  - destruct (p x) eqn:P; auto. exfalso. apply J, filter_In. auto.
Qed.

(** ** Arrays *)
Definition at_once (l : list (option nat)) (i : nat) : list (option nat) := if Nat.ltb i (length l) then remove_nth i l else l.

Lemma arr_remove_one h a l i : rd_arr h a = Ok l ->
  exists o h', run_call (AArrRemoveValueAtIndex a (Z.of_nat i)) h = Ok (o, h') /\ rd_arr h' a = Ok (at_once l i).
Proof.
  intros G. cbn [run_call]. unfold bind, arr_RemoveValueAtIndex, at_once. rewrite G.
  destruct (Z.ltb_spec (Z.of_nat i) 0); [lia|].
  destruct (Z.ltb_spec (Z.of_nat (length l) - 1) (Z.of_nat i)), (Nat.ltb_spec i (length l)); try lia; [eexists _, _; split; [reflexivity|auto]|].
  assert (La : a < length h).
  { unfold rd_arr in G. destruct (nth_error h a) eqn:Q; [|discriminate]. apply nth_error_Some. congruence. }
  unfold bind, wr. apply Nat.ltb_lt in La. rewrite La. apply Nat.ltb_lt in La. eexists _, _. split; [reflexivity|].
  unfold rd_arr. rewrite nth_error_upd by auto. now rewrite Nat.eqb_refl, Nat2Z.id.
Qed.

Lemma arr_removes is : forall h a l, rd_arr h a = Ok l ->
  exists os h', run_calls (removes_at a is) h = Ok (os, h') /\ rd_arr h' a = Ok (fold_left at_once is l).
Proof.
  induction is as [|i is IH]; intros h a l G; [exists [], h; auto|].
  destruct (arr_remove_one h a l i G) as (o & h1 & E1 & G1). destruct (IH _ _ _ G1) as (os & h2 & E2 & G2).
  exists (o :: os), h2. split; auto. unfold removes_at in *. cbn [map run_calls]. unfold bind at 1. rewrite E1. cbn.
  unfold bind. now rewrite E2.
Qed.
Lemma arr_read h a l : run_call (AArrGetValues a) h = Ok (OElems l, h) <-> rd_arr h a = Ok l.
Proof.
  cbn. unfold bind, mlift, arr_GetValues, ret. destruct (rd_arr h a) as [l'| | |]; split; intros E; inversion E; subst; auto.
Qed.

Lemma remove_nth_app {A} (a b : list A) : forall x, remove_nth (length a) (a ++ x :: b) = a ++ b.
Proof. intros x. rewrite remove_nth_list_remove. induction a; cbn; congruence. Qed.

Lemma forward n : forall d r, length r <= n ->
  fold_left at_once (seq (length d) n) (d ++ r) = d ++ every_second r.
Proof.
  induction n as [|n IH]; intros d r L; cbn [seq fold_left].
  - destruct r; [auto|cbn in L; lia].
  - unfold at_once at 2. destruct r as [|x r].
    + rewrite app_nil_r. destruct (Nat.ltb_spec (length d) (length d)); [lia|].
      cbn [every_second]. rewrite app_nil_r. clear. assert (H : forall i, length d <= i -> fold_left at_once (seq i n) d = d).
      { induction n as [|n IH]; intros i H; cbn; auto. unfold at_once at 2. destruct (Nat.ltb_spec i (length d)); [lia|]. apply IH. lia. }
      apply H. lia.
    + rewrite app_length. cbn [length] in *. destruct (Nat.ltb_spec (length d) (length d + S (length r))); [|lia].
      rewrite remove_nth_app. destruct r as [|y r].
      * rewrite app_nil_r. cbn [every_second]. rewrite app_nil_r. clear.
        assert (H : forall i, length d <= i -> fold_left at_once (seq i n) d = d).
        { induction n as [|n IH]; intros i H; cbn; auto. unfold at_once at 2. destruct (Nat.ltb_spec i (length d)); [lia|]. apply IH. lia. }
        apply H. lia.
      * cbn [every_second]. specialize (IH (d ++ [y]) r). rewrite app_length in IH. cbn [length] in *.
        rewrite Nat.add_1_r, <- !app_assoc in IH. apply IH. lia.
Qed.

Lemma unselected_snoc {A} sel (x : A) l : forall i,
  unselected sel i (l ++ [x]) = unselected sel i l ++ (if sel (i + length l) then [] else [x]).
Proof.
  induction l as [|y l IH]; intros i; cbn [app unselected length].
  - rewrite Nat.add_0_r. now destruct (sel i).
  - rewrite IH, Nat.add_succ_r. destruct (sel i); auto.
Qed.
Lemma backward sel n : forall l r, length l = n ->
  fold_left at_once (rev (filter sel (seq 0 n))) (l ++ r) = unselected sel 0 l ++ r.
Proof.
  induction n as [|n IH]; intros l r L; [destruct l; [auto|discriminate]|].
  rewrite seq_S, filter_app, rev_app_distr. cbn [filter plus].
  destruct l as [|x l] using rev_ind; [discriminate|]. clear IHl. rewrite app_length in L. cbn in L. assert (Ln : length l = n) by lia.
  rewrite unselected_snoc. cbn [plus]. rewrite Ln. rewrite <- !app_assoc. destruct (sel n).
  - cbn [rev app fold_left]. unfold at_once at 2. rewrite app_length. cbn [length]. destruct (Nat.ltb_spec n (length l + S (length r))); [|lia].
    rewrite <- Ln at 2. rewrite remove_nth_app. now apply IH.
  - cbn [rev app]. rewrite IH by auto. reflexivity.
Qed.

Lemma arr_forward h a l : run_call (AArrGetValues a) h = Ok (OElems l, h) ->
  exists os h', run_calls (removes_at a (seq 0 (length l))) h = Ok (os, h')
    /\ run_call (AArrGetValues a) h' = Ok (OElems (every_second l), h').
Proof.
  intros G. apply arr_read in G. destruct (arr_removes (seq 0 (length l)) h a l G) as (os & h' & E & G').
  exists os, h'. split; auto. apply arr_read. rewrite G'. exact (f_equal Ok (forward (length l) [] l (le_n _))).
Qed.
Lemma arr_backward h a l sel : run_call (AArrGetValues a) h = Ok (OElems l, h) ->
  exists os h', run_calls (removes_at a (rev (filter sel (seq 0 (length l))))) h = Ok (os, h')
    /\ run_call (AArrGetValues a) h' = Ok (OElems (unselected sel 0 l), h').
Proof.
  intros G. apply arr_read in G. destruct (arr_removes (rev (filter sel (seq 0 (length l)))) h a l G) as (os & h' & E & G').
  exists os, h'. split; auto. apply arr_read. rewrite G'. pose proof (backward sel (length l) l [] eq_refl) as B.
  rewrite !app_nil_r in B. exact (f_equal Ok B).
Qed.
