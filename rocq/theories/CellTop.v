(** * Calls on one array: the model of one goroutine, pairs of calls, and what races do *)
From Coq Require Import Ascii String List NArith ZArith Bool Lia.
From Verif Require Import GoStr Heap Inv World Reach SpecWorld ConcFacts ArrayModel KeysSlice CellModel SpecCell CellFacts CellRace CellCalls.
Import ListNotations.

Lemma within_cases n len : (Z.of_nat len - 1 <? n)%Z = false -> (n <? 0)%Z = false -> within n len = true /\ Z.to_nat n < len.
Proof.
  intros A B. apply Z.ltb_ge in A, B. unfold within. rewrite (proj2 (Z.leb_le _ _)), (proj2 (Z.ltb_lt _ _)) by lia. split; [reflexivity|lia].
Qed.
Lemma within_out n len : (Z.of_nat len - 1 <? n)%Z = true -> within n len = false.
Proof. intros A. apply Z.ltb_lt in A. unfold within. rewrite (proj2 (Z.ltb_ge _ _)) by lia. apply andb_false_r. Qed.
Lemma within_neg n len : (n <? 0)%Z = true -> within n len = false.
Proof. intros A. apply Z.ltb_lt in A. unfold within. rewrite (proj2 (Z.leb_gt _ _)) by lia. reflexivity. Qed.

Lemma alone_ok h a l s c q : arr_GetValues h a = Ok l -> holds s l -> call_alone a c h = Some q ->
  exists s' h' n,
    solo_run n (do_call c) s = (Ret (reply_to s l c), s')
    /\ q = Ok (reply_to s l c, h')
    /\ arr_GetValues h' a = Ok (after l c) /\ holds s' (after l c).
Proof.
  intros Ra H Q. unfold arr_GetValues in Ra. pose proof (proj1 (rd_arr_iff _ _ _) Ra) as Ha. pose proof (nth_error_lt _ _ _ Ha) as La.
  destruct (call_ok s l c H) as (_ & Fi & Hd).
  assert (Go : exists h', q = Ok (reply_to s l c, h') /\ nth_error h' a = Some (CArr (after l c))).
  2:{ destruct Go as (h' & G1 & G2). exists (snd (finish_of (do_call c) s)), h', (length (trace (do_call c) s)).
      split; [rewrite solo_end, Fi by lia; reflexivity|]. split; auto. split; auto. now apply rd_arr_iff. }
  assert (W : forall l', nth_error (upd h a (CArr l')) a = Some (CArr l')) by (intros l'; eapply nth_error_upd_same; eauto).
  destruct c as [| |n o|n| | |o r|n r|y]; cbn [call_alone] in Q; try discriminate; injection Q as <-; cbn [reply_to after].
  - unfold arr_Len. rewrite Ra. cbn. rewrite Nat2Z.id. eauto.
  - unfold arr_SetValueAtIndex. rewrite Ra. unfold index_error. destruct (n <? 0)%Z eqn:N.
    + rewrite within_neg by auto. cbn. eauto.
    + destruct (_ <? n)%Z eqn:L.
      * rewrite within_out by auto. cbn. eauto.
      * destruct (within_cases _ _ L N) as [-> _]. unfold bind. rewrite wr_ok by auto. cbn. eauto.
  - unfold arr_elem. rewrite Ra. cbn [rbind]. unfold index_error. destruct (n <? 0)%Z eqn:N.
    + cbn. eauto.
    + destruct (_ <? n)%Z eqn:L.
      * rewrite within_out by auto. cbn. eauto.
      * destruct (within_cases _ _ L N) as [-> Lt]. destruct (nth_error l (Z.to_nat n)) as [o|] eqn:E; [|apply nth_error_None in E; lia].
        rewrite (nth_error_nth _ _ _ E). destruct o; cbn; eauto.
  - unfold arr_GetValues. rewrite Ra. cbn. eauto.
  - unfold arr_GetValues. rewrite Ra. cbn. eauto.
  - unfold arr_AppendValue. rewrite Ra. rewrite wr_ok by auto. cbn. eauto.
  - unfold arr_RemoveValueAtIndex. rewrite Ra. unfold index_error. destruct (n <? 0)%Z eqn:N.
    + rewrite within_neg by auto. cbn. eauto.
    + destruct (_ <? n)%Z eqn:L.
      * rewrite within_out by auto. cbn. eauto.
      * destruct (within_cases _ _ L N) as [-> _]. unfold bind. rewrite wr_ok by auto. cbn. eauto.
Qed.

(** ** Pairs of calls *)
Lemma in_span v b i n : In v (span b i n) <-> exists j, v = VCell b j /\ i <= j < i + n.
Proof.
  unfold span. rewrite in_map_iff. split.
  - intros (j & <- & I). apply in_seq in I. eauto.
  - intros (j & -> & L). exists j. split; auto. now apply in_seq.
Qed.
Lemma within_iff n len : within n len = true <-> (0 <= n < Z.of_nat len)%Z.
Proof. unfold within. rewrite andb_true_iff, Z.leb_le, Z.ltb_lt. reflexivity. Qed.
Lemma iff_bool b c : (b = true <-> c = true) -> b = c.
Proof. destruct b, c; intuition congruence. Qed.
Lemma not_true_is b : ~ b = true -> b = false.
Proof. destruct b; congruence. Qed.
Lemma disturb_iff x c c' : disturb x c c' = true <->
  (exists v, In v (writes x c) /\ (In v (writes x c') \/ In v (reads x c'))) \/ (exists v, In v (writes x c') /\ In v (reads x c)).
Proof.
  unfold disturb. rewrite orb_true_iff, !meet_iff. setoid_rewrite in_app_iff. reflexivity.
Qed.

Lemma set_set x i j o o' : disturb x (CSet i o) (CSet j o') = true <-> i = j /\ within i (s_len x) = true.
Proof.
  rewrite disturb_iff. cbn [writes reads]. split.
  - intros [(v & I & J)|(v & I & J)].
    + destruct (within i (s_len x)) eqn:Wi; [|destruct I]. destruct I as [<-|[]]. destruct J as [J|J].
      * destruct (within j (s_len x)) eqn:Wj; [|destruct J]. destruct J as [J|[]]. injection J as J.
        apply within_iff in Wi, Wj. split; [lia|auto].
      * destruct (j <? 0)%Z; cbn in J; intuition discriminate.
    + destruct (within j (s_len x)); [|destruct I]. destruct I as [<-|[]]. destruct (i <? 0)%Z; cbn in J; intuition discriminate.
  - intros [<- W]. rewrite W. left. eexists. cbn. eauto.
Qed.
Lemma set_elem x i j o : disturb x (CSet i o) (CElem j) = true <-> i = j /\ within i (s_len x) = true.
Proof.
  rewrite disturb_iff. cbn [writes reads]. split.
  - intros [(v & I & J)|(v & [] & J)]. destruct (within i (s_len x)) eqn:Wi; [|destruct I]. destruct I as [<-|[]]. destruct J as [[]|J].
    destruct (j <? 0)%Z; [destruct J|]. destruct J as [J|J]; [discriminate|]. destruct (within j (s_len x)) eqn:Wj; [|destruct J].
    destruct J as [J|[]]. injection J as J. apply within_iff in Wi, Wj. split; [lia|auto].
  - intros [<- W]. rewrite W. apply within_iff in W. rewrite (proj2 (Z.ltb_ge _ _)) by lia. left. eexists. split; [now left|]. right. right. now left.
Qed.
Lemma set_len x i o : disturb x (CSet i o) CLen = false.
Proof.
  apply not_true_is. rewrite disturb_iff. cbn [writes reads]. intros [(v & I & J)|(v & [] & J)].
  destruct (within i (s_len x)); [|destruct I]. destruct I as [<-|[]]. cbn in J. intuition discriminate.
Qed.
Lemma set_all x i o c : c = CAll \/ c = CText -> disturb x (CSet i o) c = within i (s_len x).
Proof.
  intros Hc. apply iff_bool. rewrite disturb_iff. assert (Ew : writes x c = []) by (destruct Hc; now subst).
  assert (Er : reads x c = VHead :: span (s_base x) 0 (s_len x)) by (destruct Hc; now subst). rewrite Ew, Er. cbn [writes reads]. split.
  - intros [(v & I & J)|(v & [] & J)]. destruct (within i (s_len x)); [auto|destruct I].
  - intros W. rewrite W. apply within_iff in W. left. eexists. split; [now left|]. right. right. apply in_span. eexists. split; [reflexivity|lia].
Qed.
Lemma append_any x o r c : match c with CKept _ => False | CSet n _ | CElem n | CRemove n _ => (0 <= n)%Z | _ => True end ->
  disturb x (CAppend o r) c = true.
Proof.
  intros Hc. rewrite disturb_iff. left. exists VHead. split; [now left|]. right.
  destruct c; try contradiction; cbn [reads]; try (rewrite (proj2 (Z.ltb_ge _ _)) by lia); now left.
Qed.
Lemma append_kept x o r y : s_base y = s_base x -> s_len y <= s_len x -> r_base r <> s_base x -> disturb x (CAppend o r) (CKept y) = false.
Proof.
  intros B L N. apply not_true_is. rewrite disturb_iff. cbn [writes reads]. intros [(v & I & J)|(v & [] & J)]. destruct J as [[]|J].
  apply in_span in J as (j & -> & Lj). destruct I as [I|I]; [discriminate|]. destruct (Nat.ltb_spec (s_len x) (s_cap x)).
  - destruct I as [I|[]]. injection I as I1 I2. lia.
  - apply in_span in I as (k & E & _). injection E as E1 E2. congruence.
Qed.
Lemma remove_kept x n r y : s_base y = s_base x ->
  (disturb x (CRemove n r) (CKept y) = true <-> (0 <= n < Z.of_nat (s_len x) - 1)%Z /\ (n < Z.of_nat (s_len y))%Z).
Proof.
  intros B. rewrite disturb_iff. cbn [writes reads]. split.
  - intros [(v & I & J)|(v & [] & J)]. destruct J as [[]|J]. apply in_span in J as (j & -> & Lj).
    destruct (within n (s_len x)) eqn:W; [|destruct I]. apply within_iff in W. destruct I as [I|I]; [discriminate|].
    apply in_span in I as (k & E & Lk). injection E as E1 E2. lia.
  - intros [L L']. rewrite (proj2 (within_iff _ _)) by lia. left. exists (VCell (s_base x) (Z.to_nat n)). split.
    + right. apply in_span. eexists. split; [reflexivity|lia].
    + right. apply in_span. exists (Z.to_nat n). split; [congruence|lia].
Qed.
Lemma set_kept x n o y : s_base y = s_base x ->
  (disturb x (CSet n o) (CKept y) = true <-> (0 <= n < Z.of_nat (s_len x))%Z /\ (n < Z.of_nat (s_len y))%Z).
Proof.
  intros B. rewrite disturb_iff. cbn [writes reads]. split.
  - intros [(v & I & J)|(v & [] & J)]. destruct J as [[]|J]. apply in_span in J as (j & -> & Lj).
    destruct (within n (s_len x)) eqn:W; [|destruct I]. apply within_iff in W. destruct I as [I|[]]. injection I as E1 E2. lia.
  - intros [L L']. rewrite (proj2 (within_iff _ _)) by lia. left. exists (VCell (s_base x) (Z.to_nat n)). split; [now left|].
    right. apply in_span. exists (Z.to_nat n). split; [congruence|lia].
Qed.
Lemma out_of_range x n o r c : within n (s_len x) = false ->
  (disturb x (CSet n o) c = true -> In VHead (writes x c)) /\ (disturb x (CRemove n r) c = true -> In VHead (writes x c)).
Proof.
  intros W. rewrite !disturb_iff. cbn [writes reads]. rewrite W. split.
  - intros [(v & [] & _)|(v & I & J)]. destruct (n <? 0)%Z; cbn in J; [destruct J|]. destruct J as [<-|[]]. exact I.
  - intros [(v & [] & _)|(v & I & J)]. destruct (n <? 0)%Z; cbn in J; [destruct J|]. destruct J as [<-|[]]. exact I.
Qed.
Lemma readers_never x c c' : writes x c = [] -> writes x c' = [] -> disturb x c c' = false.
Proof. intros E E'. unfold disturb. rewrite E, E'. reflexivity. Qed.

Lemma sets_table : forall x i j o o',
  (disturb x (CSet i o) (CSet j o') = true <-> i = j /\ within i (s_len x) = true)
  /\ (disturb x (CSet i o) (CElem j) = true <-> i = j /\ within i (s_len x) = true)
  /\ disturb x (CSet i o) CLen = false
  /\ disturb x (CSet i o) CAll = within i (s_len x)
  /\ disturb x (CSet i o) CText = within i (s_len x).
Proof.
  intros x i j o o'. split; [apply set_set|]. split; [apply set_elem|]. split; [apply set_len|]. split; apply set_all; auto.
Qed.
Lemma others_table : forall x,
  (forall o r c, match c with CKept _ => False | CSet n _ | CElem n | CRemove n _ => (0 <= n)%Z | _ => True end ->
     disturb x (CAppend o r) c = true)
  /\ (forall n o r c, within n (s_len x) = false ->
       (disturb x (CSet n o) c = true -> In VHead (writes x c)) /\ (disturb x (CRemove n r) c = true -> In VHead (writes x c)))
  /\ (forall c c', writes x c = [] -> writes x c' = [] -> disturb x c c' = false).
Proof. intros x. split; [apply append_any|]. split; [intros n o r c; apply out_of_range|apply readers_never]. Qed.
Lemma kept_table : forall x y, s_base y = s_base x -> s_len y <= s_len x ->
  (forall o r, r_base r <> s_base x -> disturb x (CAppend o r) (CKept y) = false)
  /\ (forall n o, disturb x (CSet n o) (CKept y) = true <-> (0 <= n < Z.of_nat (s_len x))%Z /\ (n < Z.of_nat (s_len y))%Z)
  /\ (forall n r, disturb x (CRemove n r) (CKept y) = true <->
        (0 <= n < Z.of_nat (s_len x) - 1)%Z /\ (n < Z.of_nat (s_len y))%Z).
Proof.
  intros x y B L. split; [intros o r; now apply append_kept|]. split; [intros n o; now apply set_kept|intros n r; now apply remove_kept].
Qed.

(** ** What races do *)
Lemma turn_at {A} (ts : list (act A)) s n a ns : nth_error ts n = Some a ->
  schedule (n :: ns) (ts, s) = schedule ns (upd ts n (fst (step a s)), snd (step a s)).
Proof. intros E. unfold schedule. cbn [fold_left]. unfold turn_of. cbn [fst snd]. rewrite E. now destruct (step a s). Qed.
Ltac tick := erewrite turn_at by reflexivity; cbn [step fst snd upd st_head st_cell andthen].

(** The rest of an append that has read the header. *)
Definition append_rest (x : slice) (o : option loc) (r : room) : act reply := andthen (append_to x [o] r (Ret tt)) (fun _ => Ret RDone).
Lemma rest_ok s x l o r : cells s x = l -> s_len x <= s_cap x ->
  let f := finish_of (append_rest x o r) s in
  fst f = Some RDone /\ holds (snd f) (l ++ [o])
  /\ (r_base r <> s_base x -> cells (snd f) x = l).
Proof.
  intros E Cap. unfold append_rest. cbn zeta. rewrite finish_then. cbn [fst snd]. unfold append_to. cbn [length]. rewrite Nat.add_1_r.
  assert (Len : length l = s_len x) by (rewrite <- E; apply cells_length).
  destruct (Nat.leb_spec (S (s_len x)) (s_cap x)) as [L|L].
  - cbn [write_cells finish_of fst snd option_map]. split; [reflexivity|]. split.
    + split; [|cbn [st_head s_len s_cap]; lia]. unfold cells. cbn [st_head st_cell s_base s_len].
      rewrite <- E. pose proof (map_put_cells (s_base x) [o] (st_cell s) (s_len x)) as P. cbn [length put_cells] in P. rewrite Nat.add_1_r in P. exact P.
    + intros _. rewrite <- E. unfold cells. cbn [st_cell]. apply map_ext_in. intros j J. apply in_seq in J. apply put_before. lia.
  - match goal with |- context [read_cells ?b 0 ?k [] ?f] => destruct (read_cells_ok b k f 0 [] s) as [_ ->] end.
    cbn [app]. fold (cells s x). rewrite E.
    match goal with |- context [write_cells ?b 0 ?k ?f] => destruct (write_cells_ok b k f 0 s) as [_ ->] end.
    cbn [finish_of fst snd option_map]. split; [reflexivity|]. split.
    + split; [|cbn [st_head s_len s_cap]; lia]. unfold cells. cbn [st_head st_cell s_base s_len].
      pose proof (map_put_cells (r_base r) (l ++ [o]) (st_cell s) 0) as P. rewrite app_length in P. cbn [length] in P. rewrite Len, Nat.add_1_r in P. exact P.
    + intros N. rewrite <- E. unfold cells. cbn [st_cell]. apply map_ext. intros j.
      assert (G : forall m i f, put_cells f (r_base r) i m (s_base x) j = f (s_base x) j).
      { induction m as [|o' m IH]; intros i f; cbn [put_cells]; [reflexivity|]. rewrite IH. unfold put_cell.
        destruct (Nat.eqb_spec (s_base x) (r_base r)); [congruence|reflexivity]. }
      apply G.
Qed.

Lemma lost_append s l o o' r r' : holds s l -> r_base r <> s_base (st_head s) ->
  exists ns, let st := schedule ns (map do_call [CAppend o r; CAppend o' r'], s) in
    fst st = [Ret RDone; Ret RDone] /\ holds (snd st) (l ++ [o']).
Proof.
  intros [E Cap] N. set (x := st_head s) in *.
  destruct (rest_ok s x l o r E Cap) as (F1 & _ & C1). specialize (C1 N). set (s1 := snd (finish_of (append_rest x o r) s)) in *.
  destruct (rest_ok s1 x l o' r' C1 Cap) as (F2 & H2 & _).
  exists ([0; 1] ++ repeat 0 (length (trace (append_rest x o r) s)) ++ repeat 1 (length (trace (append_rest x o' r') s1))).
  cbn zeta. rewrite schedule_app. cbn [map do_call]. unfold append_op. cbn [andthen]. do 2 tick. fold x.
  change (schedule [] ?st) with st.
  change (andthen (append_to x [o] r (Ret tt)) (fun _ => Ret RDone)) with (append_rest x o r).
  change (andthen (append_to x [o'] r' (Ret tt)) (fun _ => Ret RDone)) with (append_rest x o' r').
  rewrite schedule_app. rewrite (schedule_repeat _ 0 _ _ (append_rest x o r)) by reflexivity.
  rewrite solo_end by lia. rewrite F1. cbn [fst snd upd]. fold s1.
  rewrite (schedule_repeat _ 1 _ _ (append_rest x o' r')) by reflexivity.
  rewrite solo_end by lia. rewrite F2. cbn [fst snd upd]. auto.
Qed.

Lemma set_crashes s l o p n r : holds s (l ++ [o]) -> within n (S (length l)) = true ->
  exists ns, let st := schedule ns (map do_call [CSet (Z.of_nat (length l)) p; CRemove n r], s) in
    fst st = [Crash; Ret (RErr None)].
Proof.
  intros H W. pose proof H as [E Cap].
  assert (Len : s_len (st_head s) = S (length l)).
  { rewrite <- (cells_length s), E, app_length. cbn. lia. }
  destruct (call_ok s _ (CRemove n r) H) as (_ & Fi & Ho). set (s1 := snd (finish_of (do_call (CRemove n r)) s)) in *.
  exists ([0] ++ repeat 1 (length (trace (do_call (CRemove n r)) s)) ++ [0]). cbn zeta. rewrite schedule_app. cbn [map].
  change (do_call (CSet (Z.of_nat (length l)) p)) with (andthen (set_op (Z.of_nat (length l)) p) (fun e => Ret (RErr e))).
  unfold set_op, checked. rewrite (proj2 (Z.ltb_ge _ _)) by lia. cbn [andthen]. tick. rewrite Len. rewrite (proj2 (Z.ltb_ge _ _)) by lia. cbn [andthen].
  change (schedule [] ?st) with st. rewrite schedule_app.
  rewrite (schedule_repeat _ 1 _ _ (do_call (CRemove n r))) by reflexivity. rewrite solo_end by lia. rewrite Fi. fold s1. cbn [fst snd upd].
  tick.
  assert (L1 : s_len (st_head s1) = length l).
  { rewrite <- (cells_length s1), (proj1 Ho). cbn [after]. rewrite app_length. cbn [length]. rewrite Nat.add_1_r, W. apply within_iff in W.
    unfold remove_nth. rewrite app_length, firstn_length, skipn_length, app_length. cbn [length]. lia. }
  rewrite L1, Nat2Z.id, Nat.ltb_irrefl. cbn. unfold index_error. rewrite app_length. cbn [length]. rewrite Nat.add_1_r, W.
  apply within_iff in W. rewrite (proj2 (Z.ltb_ge _ _)) by lia. reflexivity.
Qed.
