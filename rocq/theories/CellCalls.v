(** * Calls on one array at the same time *)
From Coq Require Import Ascii String List NArith ZArith Bool Lia.
From Verif Require Import GoStr Heap Inv ConcFacts ArrayModel KeysSlice CellModel SpecCell CellFacts CellRace.
Import ListNotations.

(** ** Loops *)
Fixpoint put_cells (f : nat -> nat -> option loc) (b i : nat) (l : list (option loc)) : nat -> nat -> option loc :=
  match l with [] => f | o :: l => put_cells (put_cell f b i o) b (S i) l end.

Definition as_reads (l : list var) : list (var * bool) := map (fun v => (v, false)) l.
Definition as_writes (l : list var) : list (var * bool) := map (fun v => (v, true)) l.

Lemma read_cells_ok {A} b n (f : list (option loc) -> act A) : forall i acc s,
  trace (read_cells b i n acc f) s = as_reads (span b i n) ++ trace (f (acc ++ map (st_cell s b) (seq i n))) s
  /\ finish_of (read_cells b i n acc f) s = finish_of (f (acc ++ map (st_cell s b) (seq i n))) s.
Proof.
  induction n as [|n IH]; intros i acc s; cbn [read_cells trace finish_of seq map].
  - rewrite app_nil_r. auto.
  - destruct (IH (S i) (acc ++ [st_cell s b i]) s) as [-> ->]. rewrite <- app_assoc. auto.
Qed.
Lemma write_cells_ok {A} b l (a : act A) : forall i s,
  trace (write_cells b i l a) s = as_writes (span b i (length l)) ++ trace a (Store (st_head s) (put_cells (st_cell s) b i l))
  /\ finish_of (write_cells b i l a) s = finish_of a (Store (st_head s) (put_cells (st_cell s) b i l)).
Proof.
  induction l as [|o l IH]; intros i s; cbn [write_cells trace finish_of length span seq map put_cells].
  - destruct s. auto.
  - destruct (IH (S i) (Store (st_head s) (put_cell (st_cell s) b i o))) as [-> ->]. auto.
Qed.

Lemma put_same f b i o : put_cell f b i o b i = o.
Proof. unfold put_cell. now rewrite !Nat.eqb_refl. Qed.
Lemma put_before f b i o j : j <> i -> put_cell f b i o b j = f b j.
Proof. intros N. unfold put_cell. rewrite Nat.eqb_refl. destruct (Nat.eqb_spec j i); [congruence|reflexivity]. Qed.
Lemma map_put_cells b l : forall f i, map (put_cells f b i l b) (seq 0 (i + length l)) = map (f b) (seq 0 i) ++ l.
Proof.
  induction l as [|o l IH]; intros f i; cbn [put_cells length].
  - rewrite Nat.add_0_r, app_nil_r. reflexivity.
  - replace (i + S (length l)) with (S i + length l) by lia. rewrite IH. rewrite seq_S, map_app. cbn [map plus].
    rewrite put_same, <- app_assoc. cbn [app]. f_equal. apply map_ext_in. intros j I. apply in_seq in I. apply put_before. lia.
Qed.
Lemma map_put_cell b f i o n : i < n -> map (put_cell f b i o b) (seq 0 n) = upd (map (f b) (seq 0 n)) i o.
Proof.
  intros L. apply nth_ext with (d := None) (d' := None); [now rewrite length_upd, !map_length|]. intros j Lj. rewrite map_length, seq_length in Lj.
  rewrite (nth_indep _ None (put_cell f b i o b 0)) by (now rewrite map_length, seq_length). rewrite map_nth, seq_nth by auto. cbn [plus].
  destruct (Nat.eq_dec j i) as [->|N].
  - rewrite put_same. symmetry. apply nth_error_nth.
    apply (nth_error_upd_same _ _ (f b i)). rewrite nth_error_map. rewrite (nth_error_nth' _ 0) by (now rewrite seq_length). now rewrite seq_nth.
  - rewrite put_before by auto. symmetry. apply nth_error_nth. rewrite nth_error_upd_other by auto.
    rewrite nth_error_map. rewrite (nth_error_nth' _ 0) by (now rewrite seq_length). now rewrite seq_nth.
Qed.

Lemma firstn_seq_map (f : nat -> option loc) n m : n <= m -> firstn n (map f (seq 0 m)) = map f (seq 0 n).
Proof.
  intros L. rewrite firstn_map. f_equal. replace m with (n + (m - n)) by lia. rewrite seq_app, firstn_app, seq_length, Nat.sub_diag.
  rewrite firstn_all2 by (now rewrite seq_length). cbn. apply app_nil_r.
Qed.
Lemma skipn_seq_map (f : nat -> option loc) n m : n <= m -> skipn n (map f (seq 0 m)) = map f (seq n (m - n)).
Proof.
  intros L. rewrite skipn_map. f_equal. replace m with (n + (m - n)) at 1 by lia. rewrite seq_app, skipn_app, seq_length, Nat.sub_diag.
  rewrite skipn_all2 by (now rewrite seq_length). reflexivity.
Qed.

(** ** What each call does alone *)
Definition shape (x : slice) (c : call) : list (var * bool) := as_reads (reads x c) ++ as_writes (writes x c).
Definition same_set (l m : list (var * bool)) : Prop := forall x, In x l <-> In x m.

Lemma trace_then {A B} (g : A -> B) (a : act A) s : trace (andthen a (fun r => Ret (g r))) s = trace a s.
Proof. rewrite trace_andthen. destruct (fst (finish_of a s)); cbn; apply app_nil_r. Qed.
Lemma finish_then {A B} (g : A -> B) (a : act A) s :
  finish_of (andthen a (fun r => Ret (g r))) s = (option_map g (fst (finish_of a s)), snd (finish_of a s)).
Proof. rewrite finish_andthen. destruct (fst (finish_of a s)); reflexivity. Qed.

Lemma checked_bad {A} n bad (go : act A) s : within n (s_len (st_head s)) = false ->
  exists e, index_error n (s_len (st_head s)) = Some e
    /\ trace (checked n bad go) s = (if (n <? 0)%Z then [] else [(VHead, false)]) ++ trace (bad e) s
    /\ finish_of (checked n bad go) s = finish_of (bad e) s.
Proof.
  unfold checked, index_error, within. intros W. destruct (Z.ltb_spec n 0) as [L|L]; [eauto|].
  rewrite (proj2 (Z.leb_le 0 n)) in * by lia. cbn [andb] in *. rewrite W. exists EIndexRange. split; auto. cbn [trace finish_of].
  apply Z.ltb_ge in W. rewrite (proj2 (Z.ltb_lt _ _)) by lia. auto.
Qed.
Lemma checked_good {A} n bad (go : act A) s : within n (s_len (st_head s)) = true ->
  index_error n (s_len (st_head s)) = None /\ (n <? 0)%Z = false /\ Z.to_nat n < s_len (st_head s)
    /\ trace (checked n bad go) s = (VHead, false) :: trace go s
    /\ finish_of (checked n bad go) s = finish_of go s.
Proof.
  unfold checked, index_error. intros W. rewrite W. unfold within in W. apply andb_prop in W as [W1 W2]. apply Z.leb_le in W1. apply Z.ltb_lt in W2.
  destruct (Z.ltb_spec n 0) as [L|L]; [lia|]. cbn [trace finish_of]. rewrite (proj2 (Z.ltb_ge _ _)) by lia. repeat split; auto. lia.
Qed.

Lemma app_perm {A} (x : A) l m : In x (l ++ m) <-> In x (m ++ l).
Proof. rewrite !in_app_iff. tauto. Qed.

Lemma call_ok s l c : holds s l ->
  same_set (trace (do_call c) s) (shape (st_head s) c)
  /\ fst (finish_of (do_call c) s) = Some (reply_to s l c)
  /\ holds (snd (finish_of (do_call c) s)) (after l c).
Proof.
  intros H. pose proof H as [E Cap]. unfold cells in E.
  assert (Len : length l = s_len (st_head s)) by (rewrite <- E, map_length; apply seq_length).
  destruct c as [| |n o|n| | |o r|n r|y]; cbn [do_call]; rewrite trace_then, finish_then; cbn [fst snd]; unfold shape; cbn [reads writes reply_to after]; rewrite ?Len.
  - cbn. split; [now intros x|auto].
  - cbn. split; [now intros x|auto].
  - unfold set_op. destruct (within n (s_len (st_head s))) eqn:W.
    + match goal with |- context [checked n ?bad ?go] => destruct (checked_good n bad go s W) as (-> & -> & L & -> & ->) end.
      cbn [trace finish_of]. rewrite (proj2 (Nat.ltb_lt _ _) L). cbn [trace finish_of fst snd option_map as_reads as_writes map app].
      split; [intros x; cbn [In]; tauto|]. split; auto. split; [|exact Cap]. unfold cells. cbn [st_head st_cell]. rewrite map_put_cell by auto. now rewrite E.
    + match goal with |- context [checked n ?bad ?go] => destruct (checked_bad n bad go s W) as (e & -> & -> & ->) end. cbn.
      split; [|auto]. destruct (n <? 0)%Z; now intros x.
  - unfold elem_op. destruct (within n (s_len (st_head s))) eqn:W.
    + match goal with |- context [checked n ?bad ?go] => destruct (checked_good n bad go s W) as (-> & -> & L & -> & ->) end.
      cbn [trace finish_of]. rewrite (proj2 (Nat.ltb_lt _ _) L). cbn [trace finish_of fst snd option_map as_reads as_writes map app].
      split; [intros x; cbn [In]; tauto|]. split; auto. do 3 f_equal. rewrite <- E.
      symmetry. apply nth_error_nth. rewrite nth_error_map. rewrite (nth_error_nth' _ 0) by (now rewrite seq_length). now rewrite seq_nth.
    + match goal with |- context [checked n ?bad ?go] => destruct (checked_bad n bad go s W) as (e & -> & -> & ->) end. cbn.
      split; [|auto]. destruct (n <? 0)%Z; now intros x.
  - unfold all_op. cbn [trace finish_of]. destruct (@read_cells_ok (list (option loc)) (s_base (st_head s)) (s_len (st_head s)) Ret 0 [] s) as [-> ->].
    cbn [trace finish_of fst snd app option_map as_reads as_writes map]. rewrite E, !app_nil_r. split; [now intros x|auto].
  - unfold text_op. cbn [trace finish_of]. destruct (s_len (st_head s)) as [|k] eqn:Ek.
    + cbn. cbn in E. subst l. split; [now intros x|auto].
    + rewrite <- Ek in *. unfold all_op. cbn [trace finish_of]. destruct (@read_cells_ok (list (option loc)) (s_base (st_head s)) (s_len (st_head s)) Ret 0 [] s) as [-> ->].
      cbn [trace finish_of fst snd app option_map as_reads as_writes map]. rewrite E, !app_nil_r. split; [intros x; cbn [In]; tauto|auto].
  - unfold append_op, append_to. cbn [trace finish_of length]. rewrite Nat.add_1_r.
    destruct (Nat.leb_spec (S (s_len (st_head s))) (s_cap (st_head s))) as [L|L].
    + rewrite (proj2 (Nat.ltb_lt _ _) L). cbn [write_cells trace finish_of fst snd option_map as_reads as_writes map app].
      split; [intros x; cbn [In]; tauto|]. split; auto. split; [|cbn [st_head s_len s_cap]; lia]. unfold cells. cbn [st_head st_cell s_base s_len].
      rewrite <- E. pose proof (map_put_cells (s_base (st_head s)) [o] (st_cell s) (s_len (st_head s))) as P. cbn [length put_cells] in P.
      rewrite Nat.add_1_r in P. exact P.
    + rewrite (proj2 (Nat.ltb_ge _ _)) by lia.
      match goal with |- context [read_cells ?b 0 ?k [] ?f] => destruct (read_cells_ok b k f 0 [] s) as [-> ->] end.
      cbn [app]. rewrite E.
      match goal with |- context [write_cells ?b 0 ?k ?f] => destruct (write_cells_ok b k f 0 s) as [-> ->] end.
      cbn [trace finish_of fst snd option_map]. rewrite app_length. cbn [length]. rewrite Len, Nat.add_1_r.
      split; [|split; [auto|]].
      * intros x. unfold as_reads, as_writes. cbn [map In]. rewrite !in_app_iff. cbn [map In]. tauto.
      * split; [|cbn [st_head s_len s_cap]; lia]. unfold cells. cbn [st_head st_cell s_base s_len].
        pose proof (map_put_cells (r_base r) (l ++ [o]) (st_cell s) 0) as P. rewrite app_length in P. cbn [length] in P. rewrite Len, Nat.add_1_r in P. exact P.
  - unfold remove_op. destruct (within n (s_len (st_head s))) eqn:W.
    + match goal with |- context [checked n ?bad ?go] => destruct (checked_good n bad go s W) as (-> & -> & L & -> & ->) end.
      cbn [trace finish_of]. rewrite (proj2 (Nat.leb_le _ _)) by lia. cbn [trace finish_of]. rewrite (proj2 (Nat.ltb_lt _ _) L).
      match goal with |- context [read_cells ?b ?i ?k [] ?f] => destruct (read_cells_ok b k f i [] s) as [-> ->] end. cbn [app].
      set (i := Z.to_nat n) in *. set (x := st_head s) in *. set (m := map _ _).
      assert (Lm : length m = s_len x - S i) by (unfold m; rewrite map_length; apply seq_length).
      unfold append_to. cbn [s_len s_cap s_base]. rewrite Lm. rewrite (proj2 (Nat.leb_le _ _)) by lia.
      match goal with |- context [write_cells ?b ?i ?k ?f] => destruct (write_cells_ok b k f i s) as [-> ->] end.
      cbn [trace finish_of fst snd option_map]. rewrite Lm. split; [|split; [auto|]].
      * intros z. unfold as_reads, as_writes. cbn [map In]. rewrite !in_app_iff. cbn [map In]. rewrite ?in_app_iff. cbn [map In]. tauto.
      * split; [|cbn [st_head s_len s_cap]; lia]. unfold cells. cbn [st_head st_cell s_base s_len]. rewrite <- Lm, map_put_cells.
        unfold remove_nth. rewrite <- E. rewrite firstn_seq_map, skipn_seq_map by (fold x; lia). reflexivity.
    + match goal with |- context [checked n ?bad ?go] => destruct (checked_bad n bad go s W) as (e & -> & -> & ->) end. cbn.
      split; [|auto]. destruct (n <? 0)%Z; now intros x.
  - unfold kept_op. destruct (@read_cells_ok (list (option loc)) (s_base y) (s_len y) Ret 0 [] s) as [-> ->].
    cbn [trace finish_of fst snd app option_map as_reads as_writes map]. rewrite !app_nil_r. split; [now intros x|auto].
Qed.

(** ** Which calls race *)
Lemma meet_iff l m : meet l m = true <-> exists v, In v l /\ In v m.
Proof.
  unfold meet. rewrite existsb_exists. split.
  - intros (v & Hv & E). apply existsb_exists in E as (w & Hw & E). destruct (var_eqb_spec v w); [subst; eauto|discriminate].
  - intros (v & Hl & Hm). exists v. split; auto. apply existsb_exists. exists v. split; auto. destruct (var_eqb_spec v v); congruence.
Qed.
Lemma in_shape x c v w : In (v, w) (shape x c) <-> In v (if w then writes x c else reads x c).
Proof.
  unfold shape, as_reads, as_writes. rewrite in_app_iff, !in_map_iff. split.
  - intros [(u & E & I)|(u & E & I)]; injection E as <- <-; exact I.
  - intros I. destruct w; [right|left]; exists v; auto.
Qed.
Lemma clash_disturb s l c c' : holds s l -> (clash (do_call c) (do_call c') s <-> disturb (st_head s) c c' = true).
Proof.
  intros H. destruct (call_ok s l c H) as (S & _). destruct (call_ok s l c' H) as (S' & _). rewrite clash_trace. unfold disturb.
  rewrite orb_true_iff, !meet_iff. split.
  - intros ([v w] & [v' w'] & Ix & Iy & C). apply S in Ix. apply S' in Iy. apply in_shape in Ix. apply in_shape in Iy.
    unfold conflicting in C. cbn [fst snd] in C. apply andb_prop in C as [Ev C]. destruct (var_eqb_spec v v') as [<-|]; [|discriminate].
    destruct w; [left; exists v; split; [auto|]; apply in_or_app; destruct w'; auto|]. destruct w'; [right; eauto|discriminate].
  - intros [(v & I & I')|(v & I & I')].
    + apply in_app_or in I' as [I'|I'].
      * exists (v, true), (v, true). rewrite (S _), (S' _), !in_shape, conflicting_on. auto.
      * exists (v, true), (v, false). rewrite (S _), (S' _), !in_shape, conflicting_on. auto.
    + exists (v, false), (v, true). rewrite (S _), (S' _), !in_shape, conflicting_on. auto.
Qed.

Lemma calls_race s l cs : holds s l ->
  ((exists ns, racing (fst (schedule ns (map do_call cs, s)))) <->
   exists i j c c', i <> j /\ nth_error cs i = Some c /\ nth_error cs j = Some c' /\ disturb (st_head s) c c' = true).
Proof.
  intros H. rewrite race_iff. split.
  - intros (i & j & a & b & N & Ea & Eb & C). rewrite nth_error_map in Ea, Eb.
    destruct (nth_error cs i) as [c|] eqn:Ei; [|discriminate]. destruct (nth_error cs j) as [c'|] eqn:Ej; [|discriminate].
    injection Ea as <-. injection Eb as <-. exists i, j, c, c'. rewrite <- (clash_disturb s l c c' H). auto.
  - intros (i & j & c & c' & N & Ei & Ej & C). exists i, j, (do_call c), (do_call c').
    rewrite !nth_error_map, Ei, Ej, (clash_disturb s l c c' H). auto.
Qed.

(** One after the other. *)
Fixpoint rounds (i : nat) (cs : list call) (s : store) : list nat :=
  match cs with
  | [] => []
  | c :: cs => repeat i (length (trace (do_call c) s)) ++ rounds (S i) cs (snd (finish_of (do_call c) s))
  end.
Lemma rounds_ok cs : forall pre s d, holds s d -> Forall over pre ->
  let st := schedule (rounds (length pre) cs s) (pre ++ map do_call cs, s) in
  Forall over (fst st) /\ holds (snd st) (fold_left after cs d).
Proof.
  induction cs as [|c cs IH]; intros pre s d H F; cbn zeta.
  - cbn. rewrite app_nil_r. auto.
  - cbn [rounds map]. rewrite schedule_app. destruct (call_ok s d c H) as (_ & Fi & Hd).
    rewrite (schedule_repeat _ _ _ _ (do_call c)) by (rewrite nth_error_app2, Nat.sub_diag by lia; reflexivity).
    rewrite solo_end by lia. rewrite Fi. cbn [fst snd].
    replace (upd (pre ++ do_call c :: map do_call cs) (length pre) (Ret (reply_to s d c)))
       with ((pre ++ [Ret (reply_to s d c)]) ++ map do_call cs).
    2:{ rewrite <- app_assoc. cbn [app]. clear. induction pre as [|x pre IH]; cbn; [reflexivity|]. now rewrite IH. }
    replace (S (length pre)) with (length (pre ++ [Ret (reply_to s d c)])) by (rewrite app_length; cbn; lia).
    apply (IH _ _ _ Hd). apply Forall_app. split; auto. constructor; auto. eexists. reflexivity.
Qed.

Lemma holds_ext s s' l : (forall v, value v s = value v s') -> holds s l -> holds s' l.
Proof.
  intros V [E C]. pose proof (V VHead) as Vh. cbn in Vh. injection Vh as Vh. split; [|now rewrite <- Vh].
  rewrite <- E. unfold cells. rewrite Vh. apply map_ext. intros i. pose proof (V (VCell (s_base (st_head s')) i)) as Vc. cbn in Vc. congruence.
Qed.

(** The answers, when each is known to end. *)
Lemma all_answers {A B} (mk : B -> act A) (ans : B -> A) (cs : list B) s0
  (Free : forall i j a b, i <> j -> nth_error (map mk cs) i = Some a -> nth_error (map mk cs) j = Some b -> ~ clash a b s0)
  (Fin : forall c, In c cs -> fst (finish_of (mk c) s0) = Some (ans c)) ns :
  Forall over (fst (schedule ns (map mk cs, s0))) -> fst (schedule ns (map mk cs, s0)) = map (fun c => Ret (ans c)) cs.
Proof.
  intros F. apply nth_ext with (d := Crash) (d' := Crash).
  - destruct (apart_at _ _ Free ns) as (Len & _). now rewrite Len, !map_length.
  - intros n Ln. destruct (apart_at _ _ Free ns) as (Len & Hs & _). rewrite Len, map_length in Ln.
    destruct (nth_error cs n) as [c|] eqn:Ec; [|apply nth_error_None in Ec; lia].
    assert (Es : nth_error (map mk cs) n = Some (mk c)) by (now apply map_nth_error).
    destruct (Hs _ _ Es) as [E _].
    assert (O : over (fst (solo_run (count_occ Nat.eq_dec ns n) (mk c) s0))).
    { rewrite Forall_forall in F. apply F. eapply nth_error_In; eauto. }
    destruct O as [r Er]. rewrite Er in E. rewrite (nth_error_nth _ _ _ E).
    pose proof (same_result _ _ Free ns n _ _ Es E) as R. rewrite (Fin c (nth_error_In _ _ Ec)) in R. injection R as <-.
    erewrite nth_error_nth; [reflexivity|]. now rewrite nth_error_map, Ec.
Qed.

Lemma calls_apart s l cs : holds s l ->
  (forall i j c c', i <> j -> nth_error cs i = Some c -> nth_error cs j = Some c' -> disturb (st_head s) c c' = false) ->
  forall ns,
    (exists ms, Forall over (fst (schedule (ns ++ ms) (map do_call cs, s))))
    /\ (Forall over (fst (schedule ns (map do_call cs, s))) ->
        fst (schedule ns (map do_call cs, s)) = map (fun c => Ret (reply_to s l c)) cs
        /\ holds (snd (schedule ns (map do_call cs, s))) (fold_left after cs l)).
Proof.
  intros H N ns.
  assert (Free : forall i j a b, i <> j -> nth_error (map do_call cs) i = Some a -> nth_error (map do_call cs) j = Some b -> ~ clash a b s).
  { intros i j a b Nij Ea Eb C. rewrite nth_error_map in Ea, Eb.
    destruct (nth_error cs i) as [c|] eqn:Ei; [|discriminate]. destruct (nth_error cs j) as [c'|] eqn:Ej; [|discriminate].
    injection Ea as <-. injection Eb as <-. apply (clash_disturb s l c c' H) in C. rewrite (N _ _ _ _ Nij Ei Ej) in C. discriminate. }
  split.
  - apply can_end; auto. intros a I. apply in_map_iff in I as (c & <- & _). destruct (call_ok s l c H) as (_ & -> & _). discriminate.
  - intros F. split.
    + apply (all_answers do_call (reply_to s l) cs s Free); auto. intros c _. destruct (call_ok s l c H) as (_ & -> & _). reflexivity.
    + destruct (rounds_ok cs [] s l H (Forall_nil _)) as [F' Hd].
      eapply holds_ext; [|exact Hd]. intros v. symmetry. exact (same_state _ _ Free ns (rounds (length (@nil (act reply))) cs s) F F' v).
Qed.

(** ** Goroutines with elements of their own *)
Lemma reply_same s s' l c mine : match c with CLen => True | CSet n _ | CElem n => (0 <= n)%Z -> mine (Z.to_nat n) = true | _ => False end ->
  reply_to s l c = reply_to s' l c.
Proof. destruct c; intros K; try contradiction; reflexivity. Qed.
Lemma hears_same mine w : forall s s' l, keeps_to mine w -> hears s w l = hears s' w l /\ leaves s w l = leaves s' w l.
Proof.
  induction w as [|c next IH]; intros s s' l K; [auto|]. destruct K as [Kc Kn]. cbn [hears leaves].
  rewrite (reply_same s s' l c mine) by (destruct c; auto). destruct (IH (reply_to s' l c) s s' (after l c) (Kn _)) as [-> ->]. auto.
Qed.
Lemma keeps_ok mine w : forall s l, holds s l -> keeps_to mine w ->
  (forall v u, In (v, u) (trace (work w) s) -> match v with VHead => u = false | VCell b i => b = s_base (st_head s) /\ mine i = true end)
  /\ fst (finish_of (work w) s) = Some (hears s w l)
  /\ st_head (snd (finish_of (work w) s)) = st_head s
  /\ cells (snd (finish_of (work w) s)) (st_head s) = leaves s w l.
Proof.
  induction w as [|c next IH]; intros s l H K; cbn [work hears leaves].
  - split; [intros v u []|]. split; [reflexivity|]. split; [reflexivity|exact (proj1 H)].
  - destruct K as [Kc Kn]. destruct (call_ok s l c H) as (Tr & Fi & Ho).
    set (s1 := snd (finish_of (do_call c) s)) in *.
    assert (Hh : st_head s1 = st_head s).
    { assert (V : value VHead s1 = value VHead s); [|cbn in V; congruence]. unfold s1.
      pose proof (solo_value (length (trace (do_call c) s)) (do_call c) s VHead) as Q. rewrite solo_end in Q by lia. cbn [snd] in Q. apply Q.
      rewrite firstn_all. intros u I. apply Tr in I. apply in_shape in I. destruct u; auto. exfalso.
      destruct c as [| |n o|n| | |o r|n r|y]; cbn in I; try contradiction. destruct (within n (s_len (st_head s))); [destruct I as [I|[]]; discriminate|destruct I]. }
    destruct (IH (reply_to s l c) s1 (after l c) Ho (Kn _)) as (Tw & Fw & Hw & Cw).
    destruct (hears_same mine (next (reply_to s l c)) s s1 (after l c) (Kn _)) as [Eh El].
    rewrite trace_andthen, finish_andthen, Fi. fold s1. rewrite trace_then, finish_then, Fw. cbn [fst snd option_map].
    split; [|split; [|split]].
    + intros v u I. apply in_app_or in I as [I|I].
      * apply Tr in I. apply in_shape in I. destruct c as [| |n o|n| | |o r|n r|y]; try contradiction; destruct u; cbn in I.
        -- destruct I. -- destruct I as [<-|[]]. reflexivity.
        -- destruct (within n (s_len (st_head s))) eqn:W; [|destruct I]. destruct I as [<-|[]]. split; auto. apply Kc. unfold within in W. apply andb_prop in W as [W _]. now apply Z.leb_le.
        -- destruct (n <? 0)%Z; [destruct I|]. destruct I as [<-|[]]. reflexivity.
        -- destruct I.
        -- destruct (Z.ltb_spec n 0); [destruct I|]. destruct I as [<-|I]; [reflexivity|]. destruct (within n (s_len (st_head s))); [|destruct I]. destruct I as [<-|[]]. auto.
      * apply Tw in I. rewrite Hh in I. exact I.
    + now rewrite Eh.
    + congruence.
    + rewrite <- Hh, Cw. auto.
Qed.

Lemma untouched {A} (a : act A) s v : (forall u, In (v, u) (trace a s) -> u = false) -> value v (snd (finish_of a s)) = value v s.
Proof.
  intros H. pose proof (solo_value (length (trace a s)) a s v) as Q. rewrite solo_end in Q by lia. apply Q. now rewrite firstn_all.
Qed.

Lemma cells_nth s x i : i < s_len x -> nth_error (cells s x) i = Some (st_cell s (s_base x) i).
Proof. intros L. unfold cells. rewrite nth_error_map. rewrite (nth_error_nth' _ 0) by (now rewrite seq_length). now rewrite seq_nth. Qed.
Lemma cells_length s x : length (cells s x) = s_len x.
Proof. unfold cells. rewrite map_length. apply seq_length. Qed.

Lemma owners_apart s l ws owner : holds s l ->
  (forall j w, nth_error ws j = Some w -> keeps_to (fun i => Nat.eqb (owner i) j) w) ->
  forall ns,
    ~ racing (fst (schedule ns (map work ws, s)))
    /\ (exists ms, Forall over (fst (schedule (ns ++ ms) (map work ws, s))))
    /\ (Forall over (fst (schedule ns (map work ws, s))) ->
        fst (schedule ns (map work ws, s)) = map (fun w => Ret (hears s w l)) ws
        /\ exists l', holds (snd (schedule ns (map work ws, s))) l' /\ length l' = length l
           /\ forall i, nth_error l' i = match nth_error ws (owner i) with
                                         | Some w => nth_error (leaves s w l) i
                                         | None => nth_error l i
                                         end).
Proof.
  intros H K ns.
  assert (Kok : forall j w, nth_error ws j = Some w -> _) by (intros j w E; exact (keeps_ok _ w s l H (K j w E))). cbn beta in Kok.
  assert (Free : forall i j a b, i <> j -> nth_error (map work ws) i = Some a -> nth_error (map work ws) j = Some b -> ~ clash a b s).
  { intros i j a b Nij Ea Eb C. rewrite nth_error_map in Ea, Eb.
    destruct (nth_error ws i) as [w|] eqn:Ei; [|discriminate]. destruct (nth_error ws j) as [w'|] eqn:Ej; [|discriminate].
    injection Ea as <-. injection Eb as <-. apply clash_trace in C as ([v u] & [v' u'] & I & I' & C).
    apply (proj1 (Kok _ _ Ei)) in I. apply (proj1 (Kok _ _ Ej)) in I'.
    unfold conflicting in C. cbn [fst snd] in C. apply andb_prop in C as [Ev C]. destruct (var_eqb_spec v v') as [<-|]; [|discriminate].
    destruct v as [|b k]; [subst; discriminate|]. destruct I as [_ I], I' as [_ I']. apply Nat.eqb_eq in I, I'. congruence. }
  assert (Ix : forall w, In w ws -> exists j, nth_error ws j = Some w) by (intros w I; now apply In_nth_error).
  split; [now apply never_racing|]. split.
  - apply can_end; auto. intros a I. apply in_map_iff in I as (w & <- & I). apply Ix in I as [j E]. destruct (Kok _ _ E) as (_ & -> & _). discriminate.
  - intros F. split.
    + apply (all_answers work (fun w => hears s w l) ws s Free); auto. intros w I. apply Ix in I as [j E]. destruct (Kok _ _ E) as (_ & -> & _). reflexivity.
    + set (t := snd (schedule ns (map work ws, s))). destruct (apart_at _ _ Free ns) as (_ & Hs & V). fold t in Hs, V.
      assert (Hd : st_head t = st_head s).
      { destruct (V VHead) as [E|(i & a & Ea & T)]; [cbn in E; congruence|]. exfalso. unfold touches in T. rewrite nth_error_map in Ea.
        destruct (nth_error ws i) as [w|] eqn:Ei; [|discriminate]. injection Ea as <-. apply (proj1 (Kok _ _ Ei)) in T. discriminate. }
      assert (Llen : length l = s_len (st_head s)) by (rewrite <- (proj1 H); apply cells_length).
      exists (cells t (st_head t)). split; [split; [reflexivity|rewrite Hd; exact (proj2 H)]|]. rewrite cells_length, Hd. split; [congruence|].
      intros i. destruct (Nat.lt_ge_cases i (s_len (st_head s))) as [Li|Li].
      2:{ rewrite (proj2 (nth_error_None _ _)) by (rewrite cells_length; lia). symmetry. destruct (nth_error ws (owner i)) as [w|] eqn:Ew.
          - destruct (Kok _ _ Ew) as (_ & _ & _ & <-). apply nth_error_None. rewrite cells_length. lia.
          - apply nth_error_None. lia. }
      rewrite cells_nth by auto. set (v := VCell (s_base (st_head s)) i).
      assert (Un : (forall j w, nth_error ws j = Some w -> forall u, In (v, u) (trace (work w) s) -> u = false) -> value v t = value v s).
      { intros U. destruct (V v) as [E|(j & a & Ea & T)]; auto. exfalso. rewrite nth_error_map in Ea.
        destruct (nth_error ws j) as [w|] eqn:Ej; [|discriminate]. injection Ea as <-. apply (U _ _ Ej) in T. discriminate. }
      assert (Own : forall j w u, nth_error ws j = Some w -> In (v, u) (trace (work w) s) -> owner i = j).
      { intros j w u Ej I. apply (proj1 (Kok _ _ Ej)) in I. destruct I as [_ I]. now apply Nat.eqb_eq in I. }
      destruct (nth_error ws (owner i)) as [w|] eqn:Ew.
      * destruct (Kok _ _ Ew) as (_ & _ & Hf & Cf). rewrite <- Cf, cells_nth by auto.
        assert (Val : value v t = value v (snd (finish_of (work w) s))); [|cbn in Val; congruence].
        assert (D : (exists u, In (v, u) (trace (work w) s)) \/ forall u, In (v, u) (trace (work w) s) -> u = false).
        { destruct (existsb (fun y => var_eqb (fst y) v) (trace (work w) s)) eqn:Ex.
          - apply existsb_exists in Ex as ([v' u] & I & Ev). cbn in Ev. destruct (var_eqb_spec v' v); [subst; eauto|discriminate].
          - right. intros u I. exfalso. assert (existsb (fun y => var_eqb (fst y) v) (trace (work w) s) = true); [|congruence].
            apply existsb_exists. exists (v, u). split; auto. cbn [fst]. destruct (var_eqb_spec v v); congruence. }
        assert (Es : nth_error (map work ws) (owner i) = Some (work w)) by (now apply map_nth_error).
        destruct D as [[u I]|D].
        -- unfold t. apply (finished_state _ _ Free ns (owner i) (work w) v u Es I).
           destruct (Hs _ _ Es) as [E1 _]. rewrite Forall_forall in F. pose proof (F _ (nth_error_In _ _ E1)) as [r Er]. exists r. congruence.
        -- rewrite (untouched _ _ _ D). apply Un. intros j w' Ej u I. pose proof (Own _ _ _ Ej I) as Eo. subst j.
           assert (w' = w) by congruence. subst. exact (D u I).
      * rewrite <- (proj1 H), cells_nth by auto. assert (Val : value v t = value v s); [|cbn in Val; congruence].
        apply Un. intros j w Ej u I. pose proof (Own _ _ _ Ej I). congruence.
Qed.
