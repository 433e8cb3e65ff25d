(** * Calls on one map at the same time *)
From Coq Require Import Ascii String List NArith ZArith Bool Lia.
From Verif Require Import GoStr StrLemmas Heap Common ArrayModel MapModel SpecDict DictLemmas
  SpecWorld Inv World Reach MapFacts ConcModel SpecConc ConcFacts AccessModel SpecAccess AccessFacts AccessRace.
Import ListNotations.

Lemma calls_race s d cs : holds_dict s d ->
  ((exists ns, racing (fst (schedule ns (map do_call cs, s)))) <->
   exists i j c c', i <> j /\ nth_error cs i = Some c /\ nth_error cs j = Some c' /\ disturb d c c' = true).
Proof.
  intros H. rewrite race_iff. split.
  - intros (i & j & a & b & N & Ea & Eb & C). rewrite nth_error_map in Ea, Eb.
    destruct (nth_error cs i) as [c|] eqn:Ei; [|discriminate]. destruct (nth_error cs j) as [c'|] eqn:Ej; [|discriminate].
    injection Ea as <-. injection Eb as <-. exists i, j, c, c'. rewrite <- (clash_disturb s d c c' H). auto.
  - intros (i & j & c & c' & N & Ei & Ej & C). exists i, j, (do_call c), (do_call c').
    rewrite !nth_error_map, Ei, Ej, (clash_disturb s d c c' H). auto.
Qed.

Section Apart.
  Context {A : Type} (start : list (act A)) (s0 : shared).
  Hypothesis Free : forall i j a b, i <> j -> nth_error start i = Some a -> nth_error start j = Some b -> ~ clash a b s0.
  Hypothesis Ends : forall a, In a start -> fst (finish_of a s0) <> None.

  (** Every schedule can be carried on until all are done. *)
  Lemma can_end ns : exists ms, Forall over (fst (schedule (ns ++ ms) (start, s0))).
  Proof.
    set (N := list_max (map (fun a => length (trace a s0)) start)).
    exists (flat_map (fun i => repeat i N) (seq 0 (length start))).
    set (l := ns ++ flat_map (fun i => repeat i N) (seq 0 (length start))).
    destruct (apart_at start s0 Free l) as (Len & H & _). apply Forall_forall. intros x I. apply In_nth_error in I as [i Ei].
    destruct (nth_error start i) as [a|] eqn:Ea.
    2:{ apply nth_error_None in Ea. assert (i < length start) by (rewrite <- Len; apply nth_error_Some; congruence). lia. }
    destruct (H _ _ Ea) as [E _]. rewrite Ei in E. injection E as ->.
    assert (L : N <= count_occ Nat.eq_dec l i).
    { unfold l. rewrite count_occ_app. assert (G : In i (seq 0 (length start))) by (apply in_seq; split; [lia|]; apply nth_error_Some; congruence).
      clear - G. induction (seq 0 (length start)) as [|j q IH]; [destruct G|]. cbn [flat_map]. rewrite count_occ_app.
      destruct G as [->|G]; [|specialize (IH G); lia]. rewrite count_occ_repeat_eq by reflexivity. lia. }
    assert (Tr : length (trace a s0) <= N).
    { unfold N. assert (Q : Forall (fun k => k <= N) (map (fun a => length (trace a s0)) start)) by (apply list_max_le; unfold N; lia).
      rewrite Forall_forall in Q. apply Q. apply in_map_iff. exists a. split; auto. eapply nth_error_In; eauto. }
    rewrite solo_end by lia. cbn [fst]. pose proof (Ends a (nth_error_In _ _ Ea)). destruct (fst (finish_of a s0)) as [r|]; [now exists r|congruence].
  Qed.
End Apart.

(** One after the other. *)
Fixpoint rounds (i : nat) (cs : list call) (s : shared) : list nat :=
  match cs with
  | [] => []
  | c :: cs => repeat i (length (trace (do_call c) s)) ++ rounds (S i) cs (snd (finish_of (do_call c) s))
  end.
Lemma rounds_ok cs : forall pre s d, holds_dict s d -> Forall over pre ->
  let st := schedule (rounds (length pre) cs s) (pre ++ map do_call cs, s) in
  Forall over (fst st) /\ holds_dict (snd st) (fold_left after cs d).
Proof.
  induction cs as [|c cs IH]; intros pre s d H F; cbn zeta.
  - cbn. rewrite app_nil_r. auto.
  - cbn [rounds map]. rewrite schedule_app. destruct (call_ok s d c H) as (_ & Fi & Hd).
    rewrite (schedule_repeat _ _ _ _ (do_call c)) by (rewrite nth_error_app2, Nat.sub_diag by lia; reflexivity).
    rewrite solo_end by lia. rewrite Fi. cbn [fst snd].
    replace (upd (pre ++ do_call c :: map do_call cs) (length pre) (Ret (reply_to d c)))
       with ((pre ++ [Ret (reply_to d c)]) ++ map do_call cs).
    2:{ rewrite <- app_assoc. cbn [app]. clear. induction pre as [|x pre IH]; cbn; [reflexivity|]. now rewrite IH. }
    replace (S (length pre)) with (length (pre ++ [Ret (reply_to d c)])) by (rewrite app_length; cbn; lia).
    apply (IH _ _ _ Hd). apply Forall_app. split; auto. constructor; auto. eexists. reflexivity.
Qed.

Lemma calls_apart s d cs : holds_dict s d ->
  (forall i j c c', i <> j -> nth_error cs i = Some c -> nth_error cs j = Some c' -> disturb d c c' = false) ->
  forall ns,
    (exists ms, Forall over (fst (schedule (ns ++ ms) (map do_call cs, s))))
    /\ (Forall over (fst (schedule ns (map do_call cs, s))) ->
        fst (schedule ns (map do_call cs, s)) = map (fun c => Ret (reply_to d c)) cs
        /\ holds_dict (snd (schedule ns (map do_call cs, s))) (fold_left after cs d)).
Proof.
  intros H N ns.
  assert (Free : forall i j a b, i <> j -> nth_error (map do_call cs) i = Some a -> nth_error (map do_call cs) j = Some b -> ~ clash a b s).
  { intros i j a b Nij Ea Eb C. rewrite nth_error_map in Ea, Eb.
    destruct (nth_error cs i) as [c|] eqn:Ei; [|discriminate]. destruct (nth_error cs j) as [c'|] eqn:Ej; [|discriminate].
    injection Ea as <-. injection Eb as <-. apply (clash_disturb s d c c' H) in C. rewrite (N _ _ _ _ Nij Ei Ej) in C. discriminate. }
  split.
  - apply can_end; auto. intros a I. apply in_map_iff in I as (c & <- & _). destruct (call_ok s d c H) as (_ & -> & _). discriminate.
  - intros F. split.
    + apply nth_ext with (d := Crash) (d' := Crash).
      * destruct (apart_at _ _ Free ns) as (Len & _). now rewrite Len, !map_length.
      * intros n Ln. destruct (apart_at _ _ Free ns) as (Len & Hs & _). rewrite Len, map_length in Ln.
        destruct (nth_error cs n) as [c|] eqn:Ec; [|apply nth_error_None in Ec; lia].
        assert (Es : nth_error (map do_call cs) n = Some (do_call c)) by (now apply map_nth_error).
        destruct (Hs _ _ Es) as [E _].
        assert (O : over (fst (solo_run (count_occ Nat.eq_dec ns n) (do_call c) s))).
        { rewrite Forall_forall in F. apply F. eapply nth_error_In; eauto. }
        destruct O as [r Er]. rewrite Er in E. rewrite (nth_error_nth _ _ _ E).
        pose proof (same_result _ _ Free ns n _ _ Es E) as R. destruct (call_ok s d c H) as (_ & R' & _).
        assert (r = reply_to d c) by congruence. subst r.
        erewrite nth_error_nth; [reflexivity|]. now rewrite nth_error_map, Ec.
    + destruct (rounds_ok cs [] s d H (Forall_nil _)) as [F' Hd].
      rewrite (same_state _ _ Free ns (rounds (length (@nil (act answer_of_call))) cs s) F F'). exact Hd.
Qed.

(** ** Goroutines that only read *)
Lemma reads_trace d w : forall s, holds_dict s d -> only_reads d w ->
  (forall x, In x (trace (work w) s) -> snd x = false) /\ finish_of (work w) s = (Some (hears d w), s).
Proof.
  induction w as [|c next IH]; intros s H R; cbn [work hears].
  - split; [intros x []|reflexivity].
  - destruct R as [Wc R]. destruct (call_ok s d c H) as (Tr & Fi & _).
    assert (St : snd (finish_of (do_call c) s) = s /\ forall x, In x (shape d c) -> snd x = false).
    { clear - H Wc Tr Fi. rewrite <- Tr. clear Fi.
      assert (G : forall A (a : act A) s, (forall x, In x (trace a s) -> snd x = false) -> snd (finish_of a s) = s).
      { clear. induction a; intros s N; cbn [trace finish_of snd] in *; auto; try (apply H; intros x I; apply N; now right);
          exfalso; specialize (N _ (or_introl eq_refl)); discriminate. }
      assert (E : forall x, In x (trace (do_call c) s) -> snd x = false).
      { rewrite Tr. destruct c as [k v|k|k|k| | |]; cbn [shape writes] in *; try destruct (dict_has d k); try discriminate Wc;
          cbn [In]; intros x I; repeat (destruct I as [<-|I]; [reflexivity|]); try destruct I.
        apply repeat_spec in I. now subst. }
      split; [now apply G|exact E]. }
    destruct St as [St Sh]. rewrite trace_andthen, finish_andthen, Fi, Tr, St.
    rewrite trace_andthen, finish_andthen. destruct (IH (reply_to d c) s H R) as [Tw Fw]. rewrite Fw. cbn [fst snd finish_of].
    split; [|reflexivity]. intros x I. apply in_app_or in I as [I|I]; [auto|]. cbn in I. rewrite app_nil_r in I. auto.
Qed.

Lemma readers_apart s d ws : holds_dict s d -> Forall (only_reads d) ws ->
  forall ns,
    ~ racing (fst (schedule ns (map work ws, s)))
    /\ snd (schedule ns (map work ws, s)) = s
    /\ (exists ms, Forall over (fst (schedule (ns ++ ms) (map work ws, s))))
    /\ (Forall over (fst (schedule ns (map work ws, s))) -> fst (schedule ns (map work ws, s)) = map (fun w => Ret (hears d w)) ws).
Proof.
  intros H R ns. rewrite Forall_forall in R.
  assert (Free : forall i j a b, i <> j -> nth_error (map work ws) i = Some a -> nth_error (map work ws) j = Some b -> ~ clash a b s).
  { intros i j a b Nij Ea Eb C. apply nth_error_In in Ea, Eb. apply in_map_iff in Ea as (w & <- & Iw). apply in_map_iff in Eb as (w' & <- & Iw').
    apply clash_trace in C as (x & y & Hx & Hy & C). apply (proj1 (reads_trace d w s H (R _ Iw))) in Hx. apply (proj1 (reads_trace d w' s H (R _ Iw'))) in Hy.
    unfold conflicting in C. rewrite Hx, Hy in C. rewrite andb_false_r in C. discriminate. }
  split; [now apply never_racing|]. split.
  - apply shared_ext. intros v. destruct (apart_at _ _ Free ns) as (_ & _ & V). destruct (V v) as [E|(i & a & Ea & T)]; [exact E|].
    exfalso. apply nth_error_In in Ea. apply in_map_iff in Ea as (w & <- & Iw). unfold touches in T.
    apply (proj1 (reads_trace d w s H (R _ Iw))) in T. discriminate.
  - split.
    + apply can_end; auto. intros a I. apply in_map_iff in I as (w & <- & Iw). destruct (reads_trace d w s H (R _ Iw)) as [_ ->]. discriminate.
    + intros F. apply nth_ext with (d := Crash) (d' := Crash).
      * destruct (apart_at _ _ Free ns) as (Len & _). now rewrite Len, !map_length.
      * intros n Ln. destruct (apart_at _ _ Free ns) as (Len & Hs & _). rewrite Len, map_length in Ln.
        destruct (nth_error ws n) as [w|] eqn:Ec; [|apply nth_error_None in Ec; lia].
        assert (Es : nth_error (map work ws) n = Some (work w)) by (now apply map_nth_error).
        destruct (Hs _ _ Es) as [E _].
        assert (O : over (fst (solo_run (count_occ Nat.eq_dec ns n) (work w) s))).
        { rewrite Forall_forall in F. apply F. eapply nth_error_In; eauto. }
        destruct O as [r Er]. rewrite Er in E. rewrite (nth_error_nth _ _ _ E).
        pose proof (same_result _ _ Free ns n _ _ Es E) as Rr.
        destruct (reads_trace d w s H (R _ (nth_error_In _ _ Ec))) as [_ Fw]. rewrite Fw in Rr. cbn in Rr. injection Rr as <-.
        erewrite nth_error_nth; [reflexivity|]. now rewrite nth_error_map, Ec.
Qed.

(** ** The calls in the model of one goroutine *)
Lemma entries_ok h m mo l : rd_map h m = Ok mo ->
  entries_of h m l = Ok (map (fun k => (k, match tbl_get (m_tbl mo) k with Some o => o | None => None end)) l).
Proof.
  intros E. induction l as [|k l IH]; [reflexivity|]. cbn [entries_of map]. unfold entry_of, map_GetValue. rewrite E. cbn [rbind]. now rewrite IH.
Qed.

Lemma call_alone_ok X h m d c : reachable X h -> w_map (view h) m = Some d ->
  exists s s' h' n,
    shared_of h m = Some s /\ holds_dict s d
    /\ solo_run n (do_call c) s = (Ret (reply_to d c), s')
    /\ call_alone m c h = Ok (reply_to d c, h')
    /\ shared_of h' m = Some s' /\ holds_dict s' (after d c).
Proof.
  intros R V. pose proof (reachable_Inv _ _ R) as I. pose proof (view_impl _ I) as P.
  apply (im_map _ _ P) in V as (mo & Hm & H). pose proof H as (Ek & Ha & Dk & T).
  pose proof (nth_error_lt _ _ _ Hm) as Lm. pose proof (nth_error_lt _ _ _ Ha) as La.
  assert (Nm : m_vals mo <> m) by congruence.
  set (s := Shared (m_tbl mo) (m_keys mo) (dict_values d)).
  assert (Hd : holds_dict s d) by (split; [|split; [|split]]; auto).
  assert (Sh : shared_of h m = Some s) by (unfold shared_of; rewrite Hm, Ha; reflexivity).
  destruct (call_ok s d c Hd) as (Tr & Fi & Hd').
  exists s, (snd (finish_of (do_call c) s)).
  assert (Go : exists h', call_alone m c h = Ok (reply_to d c, h') /\ shared_of h' m = Some (snd (finish_of (do_call c) s))).
  2:{ destruct Go as (h' & G1 & G2). exists h', (length (trace (do_call c) s)). split; [exact Sh|]. split; [exact Hd|].
      split; [rewrite solo_end, Fi by lia; reflexivity|]. auto. }
  pose proof (proj2 (rd_map_iff _ _ _) Hm) as Rm. pose proof (proj2 (rd_arr_iff _ _ _) Ha) as Ra.
  assert (W : forall vs tb ks, shared_of (upd (upd h (m_vals mo) (CArr vs)) m (CMap (MObj tb ks (m_vals mo)))) m = Some (Shared tb ks vs)).
  { intros vs tb ks. unfold shared_of. rewrite nth_error_upd by (now rewrite upd_length). rewrite Nat.eqb_refl.
    cbn [m_vals m_tbl m_keys]. rewrite nth_error_upd by (now rewrite upd_length).
    destruct (Nat.eqb_spec m (m_vals mo)); [congruence|]. rewrite nth_error_upd by auto. now rewrite Nat.eqb_refl. }
  pose proof (found_dict s d) as Fd.
  assert (Lv : length (dict_values d) = length d) by apply map_length. assert (Lk : length (dict_keys d) = length d) by apply map_length.
  destruct c as [k v|k|k|k| | |]; cbn [call_alone do_call]; rewrite ?finish_done; cbn [snd reply_to].
  - destruct (setter_solo h m mo d k v Hm H) as (h' & E & S'). unfold map_SetValue. rewrite E. cbn [rbind snd]. exists h'. split; auto.
    rewrite S'. f_equal. fold s. unfold set_op. cbn [finish_of]. rewrite Fd by auto.
    unfold solo, Nat.iter. cbn [nat_rect conc_step fst snd].
    change (c_tbl s) with (m_tbl mo). rewrite T. fold (dict_has d k).
    replace (negb match dict_get d k with Some _ => true | None => false end) with (negb (dict_has d k)) by reflexivity.
    destruct (dict_has d k) eqn:G; cbn [negb orb].
    + cbn [finish_of]. destruct (c_keys s) as [|k0 ks] eqn:Ck.
      { exfalso. cbn in Ck. rewrite Ek in Ck. destruct d; discriminate. }
      unfold set_old. cbn [finish_of conc_step fst snd].
      pose proof (find_index_dict d k) as FI. change (map fst d) with (dict_keys d) in FI. change (c_keys s) with (m_keys mo). rewrite Ek.
      destruct (find_index k (dict_keys d)) as [i|]; [|congruence]. destruct FI as (_ & Li & _). cbn [finish_of conc_step fst snd].
      change (c_vals s) with (dict_values d). rewrite Lv. destruct (Nat.ltb_spec i (length d)); [|lia].
      cbn [finish_of]. change (c_vals s) with (dict_values d). rewrite Lv. destruct (Nat.ltb_spec i (length d)); [|lia].
      reflexivity.
    + unfold set_new, set_table. cbn. reflexivity.
  - unfold map_RemoveKey. rewrite Rm. unfold has_key. rewrite T. unfold remove_op. cbn [finish_of]. rewrite Fd by auto.
    fold (dict_has d k). destruct (dict_has d k) eqn:G; cbn [negb].
    + pose proof (find_index_dict d k) as FI. change (map fst d) with (dict_keys d) in FI. cbn [finish_of c_keys].
      change (c_keys s) with (m_keys mo). rewrite Ek. destruct (find_index k (dict_keys d)) as [i|]; [|congruence]. destruct FI as (_ & Li & _).
      cbn [finish_of c_keys]. change (c_keys s) with (m_keys mo). rewrite ?Ek. rewrite Lk.
      destruct (Nat.ltb_spec i (length d)); [|lia]. unfold remove_val. cbn [finish_of c_vals].
      change (c_vals s) with (dict_values d). rewrite Lv. destruct (Nat.ltb_spec i (length d)); [|lia].
      cbn [finish_of c_vals]. change (c_vals s) with (dict_values d). rewrite Lv. destruct (Nat.ltb_spec i (length d)); [|lia].
      cbn [finish_of snd c_tbl c_keys c_vals].
      unfold bind. rewrite wr_ok by auto. unfold arr_RemoveValueAtIndex.
      set (h1 := upd h m _). assert (Ra1 : rd_arr h1 (m_vals mo) = Ok (dict_values d)).
      { apply rd_arr_iff. unfold h1. rewrite nth_error_upd_other; auto. }
      rewrite Ra1. destruct (Z.ltb_spec (Z.of_nat i) 0); [lia|].
      destruct (Z.ltb_spec (Z.of_nat (length (dict_values d)) - 1) (Z.of_nat i)); [unfold dict_values in *; rewrite map_length in *; lia|].
      cbn [orb]. unfold bind, h1. rewrite ?wr_ok by (now rewrite upd_length). rewrite Nat2Z.id. cbn. eexists. split; [reflexivity|].
      unfold shared_of. rewrite nth_error_upd by (now rewrite upd_length). destruct (Nat.eqb_spec (m_vals mo) m); [congruence|].
      rewrite nth_error_upd by auto. rewrite Nat.eqb_refl. cbn [m_vals m_tbl m_keys]. rewrite nth_error_upd by (now rewrite upd_length).
      rewrite Nat.eqb_refl. reflexivity.
    + exists h. split; [reflexivity|exact Sh].
  - unfold map_HasKey. rewrite Rm. cbn [rbind]. exists h. unfold has_key. rewrite T. split; [reflexivity|exact Sh].
  - unfold map_GetValue. rewrite Rm. cbn [rbind]. rewrite T. exists h. split; [reflexivity|]. unfold get_op. cbn [finish_of]. destruct (found _ _); exact Sh.
  - unfold map_GetKeys. rewrite Rm. cbn [rbind]. rewrite Ek. exists h. split; [reflexivity|exact Sh].
  - unfold map_Values. rewrite Rm. cbn [rbind]. unfold arr_GetValues. rewrite Ra. cbn [rbind]. exists h. split; [reflexivity|exact Sh].
  - unfold map_GetKeys. rewrite Rm. cbn [rbind]. rewrite (entries_ok _ _ _ _ Rm). cbn [rbind]. exists h. split.
    + do 3 f_equal. rewrite Ek.
      rewrite (map_ext _ (fun k => (k, match dict_get d k with Some o => o | None => None end))) by (intros k; now rewrite T). now apply dict_entries.
    + unfold entries_op. cbn [finish_of]. destruct (loop_trace (c_keys s) [] s) as [_ ->]. exact Sh.
Qed.

(** ** What races do *)
Lemma turn_at {A} (ts : list (act A)) s n a ns : nth_error ts n = Some a ->
  schedule (n :: ns) (ts, s) = schedule ns (upd ts n (fst (step a s)), snd (step a s)).
Proof. intros E. unfold schedule. cbn [fold_left]. unfold turn_of. cbn [fst snd]. rewrite E. now destruct (step a s). Qed.
Ltac tick := erewrite turn_at by reflexivity; cbn [step fst snd upd c_tbl c_keys c_vals andthen].

Lemma two_removes s d k o : holds_dict s (d ++ [(k, o)]) ->
  exists ns, nth_error (fst (schedule ns (map do_call [CRemove k; CRemove k], s))) 1 = Some Crash.
Proof.
  intros H. exists [0; 1; 0; 1; 0; 1; 0; 0; 1]. pose proof (found_dict _ _ k H) as F. pose proof H as (K & _ & D & _).
  assert (G : dict_has (d ++ [(k, o)]) k = true).
  { apply dict_has_keys. unfold dict_keys. rewrite map_app. apply in_or_app. right. now left. }
  rewrite G in F.
  assert (FI : find_index k (c_keys s) = Some (length d)).
  { rewrite K. unfold dict_keys. rewrite map_app. cbn [map fst]. unfold dict_ok in D. rewrite map_app in D. cbn [map fst] in D.
    assert (Nk : ~ In k (map fst d)). { apply NoDup_remove_2 in D. rewrite app_nil_r in D. exact D. }
    clear - Nk. induction d as [|[k' v'] d IH]; cbn; [now rewrite str_eqb_refl|]. cbn in Nk.
    destruct (str_eqb_spec k' k); [tauto|]. rewrite IH by tauto. reflexivity. }
  assert (Lk : length (c_keys s) = S (length d)) by (rewrite K; unfold dict_keys; rewrite map_length, app_length; cbn; lia).
  assert (Lr : length (remove_nth (length d) (c_keys s)) = length d).
  { rewrite remove_nth_list_remove. clear - Lk. revert Lk. generalize (length d). induction (c_keys s) as [|x l IH]; intros n; [discriminate|].
    destruct n; cbn [list_remove length]; intros [= E]; [exact E|]. now rewrite IH. }
  cbn [map do_call]. unfold done, remove_op. cbn [andthen].
  do 2 (tick; rewrite F; cbn [andthen]). do 2 tick. do 2 (tick; rewrite FI; cbn [andthen]).
  tick. rewrite Lk. rewrite (proj2 (Nat.ltb_lt _ _)) by lia. cbn [andthen]. tick. tick. rewrite Lr, Nat.ltb_irrefl. reflexivity.
Qed.

Lemma torn_read s d k v : holds_dict s d -> dict_has d k = false ->
  exists ns, nth_error (fst (schedule ns (map do_call [CSet k v; CEntries], s))) 1 = Some (Ret (REntries (d ++ [(k, None)]))).
Proof.
  intros H G. pose proof (found_dict _ _ k H) as F. rewrite G in F. pose proof H as (K & _ & D & T).
  exists ([0; 0; 0] ++ repeat 1 (S (S (length d)))). rewrite schedule_app. cbn [map do_call]. unfold done at 1, set_op at 1. cbn [andthen].
  tick. rewrite F. unfold set_new. cbn [andthen]. tick. tick. unfold schedule at 2. cbn [fold_left].
  set (s1 := Shared _ _ _). set (ts := _ :: _).
  rewrite (schedule_repeat _ 1 ts s1 (done REntries entries_op)) by reflexivity.
  assert (Fi : finish_of (done REntries entries_op) s1 = (Some (REntries (d ++ [(k, None)])), s1)).
  { rewrite finish_done. unfold entries_op. cbn [finish_of]. destruct (loop_trace (c_keys s1) [] s1) as [_ ->]. cbn [fst snd option_map app].
    do 3 f_equal. unfold s1. cbn [c_tbl c_keys]. rewrite map_app. cbn [map]. rewrite K.
    rewrite (map_ext _ (fun k => (k, match dict_get d k with Some o => o | None => None end))) by (intros k2; now rewrite T).
    rewrite dict_entries by auto. rewrite T. unfold dict_has in G. destruct (dict_get d k); [discriminate|reflexivity]. }
  rewrite solo_end.
  - rewrite Fi. reflexivity.
  - rewrite trace_done. unfold entries_op. cbn [trace length]. destruct (loop_trace (c_keys s1) [] s1) as [-> _]. unfold table_reads. rewrite repeat_length.
    unfold s1. cbn [c_keys]. rewrite app_length, K. unfold dict_keys. rewrite map_length. cbn. lia.
Qed.
