(** * Lenient texts mean their tidy texts; brackets and quotes; results of Parse on any text *)
From Coq Require Import Ascii String List NArith ZArith Bool Lia.
From Verif Require Import GoStr GoNum GoFloat Heap Common ValueModel ArrayModel MapModel JsonModel ParserModel
  StrLemmas SpecDict DictLemmas SpecNum NumLemmas SpecWorld Inv World Reach SpecFloat FloatFacts SpecDoc RepFacts
  SpecText SpecToken TreeParser ParseWorld ParseRefine ParseTop TextRun TokenFacts SpecParse ParseFacts PosFacts.
Import ListNotations.

Lemma squeeze_idem t : squeeze (squeeze t) = squeeze t.
Proof.
  unfold squeeze. induction t as [|c t IH]; auto. cbn [filter]. destruct (negb (ignored c)) eqn:E; auto.
  cbn [filter]. rewrite E. now f_equal.
Qed.
Lemma squeeze_plain t : Forall plain t -> Forall (fun c => printable c /\ c <> c_bs) (squeeze t).
Proof.
  intros P. apply Forall_forall. intros c I. unfold squeeze in I. apply filter_In in I as [I E].
  rewrite Forall_forall in P. unfold ignored in E.
  destruct (P c I) as [[->|[->|[->| ->]]]|H]; try discriminate. split; auto. intros ->. discriminate.
Qed.
Lemma present_tidy v : present (tidy v) = present v.
Proof. destruct v; cbn [tidy present]; auto. now rewrite squeeze_idem. Qed.
Lemma key_of_tidy k v : key_of k (tidy v) = key_of k v.
Proof. now destruct v. Qed.

Lemma T0_squeeze t : Forall plain t -> T0 (squeeze t) = T0 t.
Proof.
  intros P. rewrite !T0_scalar, squeeze_idem; auto.
  eapply Forall_impl; [|apply squeeze_plain, P]. intros c [H _]. now right.
Qed.

Lemma tidy_value :
  (forall v, Forall (Forall plain) (tokens v) -> value_of T0 (tidy v) = value_of T0 v)
  /\ (forall l, Forall (Forall plain) (tokens_elems l) -> elems_of T0 (tidy_elems l) = elems_of T0 l)
  /\ (forall l, Forall (Forall plain) (tokens_members l) ->
        forall ms, members_of T0 ms (tidy_members l) = members_of T0 ms l).
Proof.
  assert (A : forall v, Forall (Forall plain) (tokens v) -> present v = false -> value_of T0 v = (None, [])).
  { intros v P E. destruct v as [t| | |]; try discriminate. inversion P; subst. rewrite value_of_JTok.
    cbn in E. destruct (squeeze t) eqn:Q; [|discriminate]. destruct (T0_fine t) as (N & _); auto.
    now rewrite (proj2 N Q). }
  apply jtext_combined; cbn [tokens tokens_elems tokens_members tidy tidy_elems tidy_members].
  - intros t P. inversion P; subst. now rewrite !value_of_JTok, T0_squeeze.
  - reflexivity.
  - intros l IH P. now rewrite !value_of_JArr, IH.
  - intros l IH P. now rewrite !value_of_JMap, IH.
  - reflexivity.
  - intros pre v IV post c r IR P. apply Forall_app in P as [P1 P2]. rewrite elems_of_ECons.
    destruct (present v) eqn:E.
    + now rewrite elems_of_ECons, IV, IR.
    + rewrite (A v), IR by auto. now destruct (elems_of T0 r).
  - reflexivity.
  - intros pre k mid pre2 v IV post c r IR P ms. apply Forall_app in P as [P1 P2]. rewrite members_of_MCons.
    destruct (present v) eqn:E.
    + rewrite members_of_MCons, IV by auto. destruct (value_of T0 v) as [d e]. rewrite key_of_tidy. now rewrite IR.
    + rewrite (A v), IR by auto. now destruct (members_of T0 ms r).
Qed.

Lemma tidy_strict :
  (forall v, present v = true -> Forall (Forall plain) (tokens v) -> text_ok false v -> text_ok true (tidy v))
  /\ (forall l, Forall (Forall plain) (tokens_elems l) -> elems_ok false l -> elems_ok true (tidy_elems l))
  /\ (forall l, Forall (Forall plain) (tokens_members l) -> members_ok false l -> members_ok true (tidy_members l)).
Proof.
  assert (LE : forall l, last_elem (tidy_elems l) = true -> tidy_elems l = ENil []).
  { intros l. induction l as [b|pre v post c r IH]; cbn [tidy_elems]; auto. destruct (present v); auto. discriminate. }
  assert (LM : forall l, last_member (tidy_members l) = true -> tidy_members l = MNil []).
  { intros l. induction l as [b|pre k mid pre2 v post c r IH]; cbn [tidy_members]; auto. destruct (present v); auto. discriminate. }
  apply jtext_combined; cbn [tokens tokens_elems tokens_members tidy tidy_elems tidy_members text_ok elems_ok members_ok].
  - intros t E P [A B]. inversion P; subst. split; [|split].
    + apply Forall_forall. intros c I. unfold squeeze in I. apply filter_In in I as [I _].
      rewrite Forall_forall in A. auto.
    + cbn in E. destruct (squeeze t); [discriminate|congruence].
    + now apply squeeze_plain.
  - auto.
  - auto.
  - auto.
  - intros b _ _. constructor.
  - intros pre v IV post c r IR P (A & B & C & D & E). apply Forall_app in P as [P1 P2].
    destruct (present v) eqn:Q; auto. cbn [elems_ok]. split; [constructor|]. split; [auto|]. split; [constructor|].
    split; auto. split; auto.
  - intros b _ _. constructor.
  - intros pre k mid pre2 v IV post c r IR P (A & B & C & D & E & F & G & H). apply Forall_app in P as [P1 P2].
    destruct (present v) eqn:Q; auto. cbn [members_ok]. split; [constructor|]. split; [auto|]. split; [constructor|].
    split; [constructor|]. split; [auto|]. split; [destruct (is_token (tidy v)); constructor|].
    split; auto. split; auto.
Qed.

Lemma parse_tidy X h l :
  reachable X h -> members_ok false l -> plain_tokens l ->
  members_ok true (tidy_members l)
  /\ exists r, parses X h (text_of (JMap l)) r /\ parses X h (text_of (JMap (tidy_members l))) r.
Proof.
  intros R OK P. assert (S : members_ok true (tidy_members l)) by now apply tidy_strict.
  split; auto. exists (outcome T0 l). split; [now apply parse_any|].
  assert (E : outcome T0 l = outcome T0 (tidy_members l)).
  { unfold outcome. now rewrite (proj2 (proj2 tidy_value)). }
  rewrite E. apply parse_any; auto. now apply strict_lenient.
Qed.

(** ** Any text: a map or errors (C05) *)

Lemma parse_one_result X h s r h' :
  reachable X h -> Parse X s h = Ok (r, h') ->
  (exists m, r = GVal (Some m) /\ has (w_map (view h')) m) \/ (exists e, r = GErr e /\ e <> []).
Proof.
  intros R E. pose proof (parse_refines X h s R) as P. unfold parse_result in P.
  destruct (tparse s) as [[[d|]|e]| | |]; try contradiction.
  - destruct P as (h1 & m & P & _ & _ & D & _). rewrite P in E. inversion E; subst. left. exists m. split; auto.
    inversion D; subst; try discriminate;
      match goal with H : _ \/ _ |- _ => destruct H as [Q|Q]; inversion Q; subst end. eexists; eauto.
  - destruct P as (N & h1 & P & _). rewrite P in E. inversion E; subst. eauto.
  - congruence.
Qed.

(** ** The first checks (C06) *)
Lemma parse_wrapping X h s :
  reachable X h ->
  (s = [] \/ (forall t, s <> c_lb :: t) \/ (forall t, s <> t ++ [c_rb])) ->
  exists a b c, Parse X s h = Ok (GErr (a ++ b ++ c), h)
    /\ (s = [] /\ a = [EEmpty] \/ s <> [] /\ a = [])
    /\ ((forall t, s <> c_lb :: t) /\ b = [ENoOpen] \/ (exists t, s = c_lb :: t) /\ b = [])
    /\ ((forall t, s <> t ++ [c_rb]) /\ c = [ENoClose] \/ (exists t, s = t ++ [c_rb]) /\ c = []).
Proof.
  intros R H. exists (match s with [] => [EEmpty] | _ => [] end),
    (if has_prefix [c_lb] s then [] else [ENoOpen]), (if has_suffix [c_rb] s then [] else [ENoClose]).
  assert (A : s = [] /\ (match s with [] => [EEmpty] | _ => [] end) = [EEmpty]
    \/ s <> [] /\ (match s with [] => [EEmpty] | _ => [] end) = []).
  { destruct s; [left|right]; auto. split; [discriminate|reflexivity]. }
  assert (B : (forall t, s <> c_lb :: t) /\ (if has_prefix [c_lb] s then [] else [ENoOpen]) = [ENoOpen]
    \/ (exists t, s = c_lb :: t) /\ (if has_prefix [c_lb] s then [] else [ENoOpen]) = []).
  { destruct s as [|x t]; [left; split; [discriminate|reflexivity]|]. rewrite has_prefix1.
    destruct (Ascii.eqb_spec c_lb x); [right; subst; eauto|left; split; auto; congruence]. }
  assert (C : (forall t, s <> t ++ [c_rb]) /\ (if has_suffix [c_rb] s then [] else [ENoClose]) = [ENoClose]
    \/ (exists t, s = t ++ [c_rb]) /\ (if has_suffix [c_rb] s then [] else [ENoClose]) = []).
  { destruct s as [|x t] using rev_ind; [left; split; [destruct t; discriminate|reflexivity]|].
    rewrite has_suffix1_app. destruct (Ascii.eqb_spec c_rb x); [right; subst; eauto|left; split; auto].
    intros t' Q. apply app_inj_tail in Q. destruct Q. congruence. }
  split; [|auto].
  unfold Parse. fold (pre_errs s). destruct (pre_errs s) as [|e es] eqn:E.
  - exfalso. unfold pre_errs in E. apply app_eq_nil in E as [E1 E]. apply app_eq_nil in E as [E2 E3].
    rewrite E1 in A. rewrite E2 in B. rewrite E3 in C.
    destruct A as [[_ A]|[A _]]; [discriminate|]. destruct B as [[_ B]|[[t1 B] _]]; [discriminate|].
    destruct C as [[_ C]|[[t2 C] _]]; [discriminate|]. destruct H as [H|[H|H]]; [auto|eapply H; eauto|eapply H; eauto].
  - rewrite <- E. reflexivity.
Qed.

(** ** Balance (C07) *)

Definition cadd (c : counts) (o : str) (q0 q : bool) (c' : counts) : Prop :=
  n_lb c' = (n_lb c + occurrences c_lb o)%nat /\ n_rb c' = (n_rb c + occurrences c_rb o)%nat
  /\ n_ls c' = (n_ls c + occurrences c_ls o)%nat /\ n_rs c' = (n_rs c + occurrences c_rs o)%nat
  /\ (n_oq c' + (if q0 then 1 else 0) + n_cq c = n_cq c' + n_oq c + (if q then 1 else 0))%nat.

Definition cnt_ps (st : tst) : counts * bool := (t_cnt st, t_ps st).

Lemma t_step_cnt prev b st st' :
  t_step prev b st = Ok st' ->
  cnt_ps st' =
    let q := Ascii.eqb b c_dq && match prev with Some p => negb (Ascii.eqb p c_bs) | None => true end in
    if q then if t_ps st then (count_close (t_cnt st), false) else (count_open (t_cnt st), true)
    else if t_ps st then (t_cnt st, true) else (count_bracket b (t_cnt st), false).
Proof.
  assert (M : forall q b (st st' : tst), t_step_mode q b st = Ok st' -> cnt_ps st' = cnt_ps st).
  { clear. intros q b st st'. unfold t_step_mode, t_close_keys, t_end, t_open_map, t_open_array, cnt_ps.
    destruct st as [md ps tk tv stk r c e].
    cbn [t_mode t_ps t_tk t_tv t_stk t_root t_cnt t_errs t_set_mode].
    assert (V : forall (pop : bool) (st2 : tst),
      (q0 <-r t_value tk tv stk ;;
       l <-r (if pop then t_pop (fst q0) r else Ok (fst q0, r)) ;;
       Ok (TSt (t_next MValue (fst l)) ps [] [] (fst l) (snd l) c (e ++ snd q0))) = Ok st2 ->
       (t_cnt st2, t_ps st2) = (c, ps)).
    { intros pop st2. destruct (t_value tk tv stk); try discriminate. cbn [rbind].
      destruct (if pop then _ else _); try discriminate. cbn [rbind]. intros E. inversion E. reflexivity. }
    destruct md.
    - destruct (Ascii.eqb b c_rb).
      + destruct (t_pop stk r); try discriminate. cbn [rbind]. intros E; inversion E; reflexivity.
      + destruct q; intros E; inversion E; reflexivity.
    - intros E; inversion E. now destruct q.
    - intros E; inversion E. now destruct (Ascii.eqb b c_col).
    - cbn [andb]. destruct (negb ps).
      + destruct (Ascii.eqb b c_lb).
        { destruct (t_attach tk stk); try discriminate. cbn [rbind]. intros E; inversion E; reflexivity. }
        destruct (Ascii.eqb b c_rb); [apply (V true)|].
        destruct (Ascii.eqb b c_ls).
        { destruct stk as [|fa stk]; [discriminate|]. destruct (t_attach tk (fa :: stk)); try discriminate.
          cbn [rbind]. intros E; inversion E; reflexivity. }
        destruct (Ascii.eqb b c_rs); [apply (V true)|].
        destruct (Ascii.eqb b c_com); [apply (V false)|].
        intros E; inversion E; reflexivity.
      + intros E; inversion E; reflexivity.
    - destruct (true && _); [intros E; inversion E; reflexivity|]. destruct (negb ps).
      + destruct (Ascii.eqb b c_lb).
        { destruct (t_attach tk stk); try discriminate. cbn [rbind]. intros E; inversion E; reflexivity. }
        destruct (Ascii.eqb b c_rb); [apply (V true)|].
        destruct (Ascii.eqb b c_ls).
        { destruct stk as [|fa stk]; [discriminate|]. destruct (t_attach tk (fa :: stk)); try discriminate.
          cbn [rbind]. intros E; inversion E; reflexivity. }
        destruct (Ascii.eqb b c_rs); [apply (V true)|].
        destruct (Ascii.eqb b c_com); [apply (V false)|].
        intros E; inversion E; reflexivity.
      + intros E; inversion E; reflexivity. }
  unfold t_step.
  set (q := Ascii.eqb b c_dq && match prev with Some p => negb (Ascii.eqb p c_bs) | None => true end).
  destruct (t_ps st) eqn:P; cbn [negb].
  - destruct q.
    + intros H.
      assert (forall st2, cnt_ps (t_add_val (utf8_of_byte b) st2) = cnt_ps st2) as AV by reflexivity.
      unfold t_set_ps in *. cbn [t_mode] in *.
      destruct (t_mode st); try (apply M in H; exact H).
      * unfold t_end in H. destruct (t_value _ _ _); try discriminate. cbn [rbind] in H. inversion H. reflexivity.
      * unfold t_end in H. destruct (t_value _ _ _); try discriminate. cbn [rbind] in H. inversion H. reflexivity.
    + intros H. apply M in H. rewrite H. unfold cnt_ps. now rewrite P.
  - destruct q; intros H; apply M in H; rewrite H; reflexivity.
Qed.

Lemma count_bracket_add b c : cadd c [b] false false (count_bracket b c).
Proof.
  unfold cadd, count_bracket, occurrences. cbn [filter].
  destruct (Ascii.eqb_spec b c_lb) as [->|N1]; [cbn; lia|].
  destruct (Ascii.eqb_spec b c_rb) as [->|N2]; [cbn; lia|].
  destruct (Ascii.eqb_spec b c_ls) as [->|N3]; [cbn; lia|].
  destruct (Ascii.eqb_spec b c_rs) as [->|N4]; [cbn; lia|].
  rewrite (eqb_ne c_lb b), (eqb_ne c_rb b), (eqb_ne c_ls b), (eqb_ne c_rs b) by congruence. cbn. lia.
Qed.

Lemma loop_counts s : forall prev st st',
  t_loop prev s st = Ok st' ->
  cadd (t_cnt st) (fst (outside prev (t_ps st) s)) (t_ps st) (snd (outside prev (t_ps st) s)) (t_cnt st').
Proof.
  induction s as [|b s IH]; intros prev st st' H.
  - cbn in H. inversion H; subst. cbn. unfold cadd, occurrences. cbn. lia.
  - cbn [t_loop] in H. destruct (t_step prev b st) as [st1| | |] eqn:E; try discriminate. cbn [rbind] in H.
    apply t_step_cnt in E. apply IH in H. clear IH. cbn [outside]. cbn zeta in E.
    destruct (Ascii.eqb b c_dq && _).
    + unfold cnt_ps in E.
      destruct (t_ps st); injection E as E1 E2; rewrite E1, E2 in H; cbn [negb];
        unfold cadd, count_close, count_open in *; cbn [n_lb n_rb n_ls n_rs n_oq n_cq] in *; lia.
    + unfold cnt_ps in E. destruct (t_ps st) eqn:P; injection E as E1 E2; rewrite E1, E2 in H.
      * destruct (outside (Some b) true s) as [o q] eqn:O. cbn [fst snd] in *. exact H.
      * destruct (outside (Some b) false s) as [o q] eqn:O. cbn [fst snd] in *.
        pose proof (count_bracket_add b (t_cnt st)) as A. unfold cadd in *.
        change (b :: o) with ([b] ++ o). rewrite !occ_app. lia.
Qed.

Lemma parse_balance X h s m h' :
  reachable X h -> Parse X s h = Ok (GVal m, h') ->
  let (o, q) := outside None false s in
  occurrences c_lb o = occurrences c_rb o /\ occurrences c_ls o = occurrences c_rs o /\ q = false.
Proof.
  intros R E. pose proof (parse_refines X h s R) as P. unfold parse_result in P.
  destruct (tparse s) as [[[d|]|e]| | |] eqn:TP; try contradiction; try congruence.
  2: { destruct P as (_ & h1 & P & _). congruence. }
  clear P. unfold tparse in TP. destruct (pre_errs s); [|discriminate].
  destruct (str_eqb_spec s (lit "{}")) as [->|N].
  { vm_compute. auto. }
  destruct (t_loop None s tst0) as [st| | |] eqn:L; cbn [rbind] in TP; try discriminate.
  destruct (t_errs st); [|discriminate].
  destruct (post_errs (t_cnt st)) eqn:Q; [|discriminate].
  apply loop_counts in L. cbn [tst0 t_ps] in L.
  destruct (outside None false s) as [o q]. cbn [fst snd] in L.
  unfold post_errs in Q. apply app_eq_nil in Q as [Q1 Q]. apply app_eq_nil in Q as [Q2 Q3].
  destruct (Nat.eqb_spec (n_lb (t_cnt st)) (n_rb (t_cnt st))); [|discriminate].
  destruct (Nat.eqb_spec (n_ls (t_cnt st)) (n_rs (t_cnt st))); [|discriminate].
  destruct (Nat.eqb_spec (n_oq (t_cnt st)) (n_cq (t_cnt st))); [|discriminate].
  unfold cadd in L. cbn in L. destruct q; repeat split; lia.
Qed.
