(** * Object texts inside other texts *)
From Coq Require Import Ascii String List NArith ZArith Bool Lia.
From Verif Require Import GoStr StrLemmas GoNum GoFloat Heap Common ValueModel ArrayModel MapModel JsonModel ParserModel
  SpecDict DictLemmas SpecNum NumLemmas SpecWorld Inv World Reach SpecFloat FloatFacts SpecDoc RepFacts
  SpecText SpecToken TreeParser ParseWorld ParseRefine ParseTop TextRun TokenFacts SpecParse ParseFacts TypedFacts ParseMore SpecPanic PanicFacts
  TidyFacts SpecRender SpecNest.
Import ListNotations.

(** ** Counters do not matter to the rest *)
Definition setc (c : counts) (st : tst) : tst :=
  TSt (t_mode st) (t_ps st) (t_tk st) (t_tv st) (t_stk st) (t_root st) c (t_errs st).

Definition sameres (x y : res tst) : Prop :=
  match x with Ok st => exists c, y = Ok (setc c st) | _ => y = x end.

Lemma setc_setc a b st : setc a (setc b st) = setc a st.
Proof. reflexivity. Qed.
Lemma setc_self st : setc (t_cnt st) st = st.
Proof. now destruct st. Qed.

Lemma sameres_end pop st c : sameres (t_end pop st) (t_end pop (setc c st)).
Proof.
  unfold t_end. cbn [setc t_tk t_tv t_stk t_root t_mode t_ps t_cnt t_errs].
  destruct (t_value (t_tk st) (t_tv st) (t_stk st)) as [q| | |]; cbn [rbind sameres]; auto.
  destruct (if pop then _ else _) as [l| | |]; cbn [rbind sameres]; auto. exists c. reflexivity.
Qed.

Lemma sameres_mode q b st c : sameres (t_step_mode q b st) (t_step_mode q b (setc c st)).
Proof.
  unfold t_step_mode. cbn [setc t_mode].
  assert (V : sameres
     (let st := t_set_mode MValue st in
      if negb (t_ps st)
      then if Ascii.eqb b c_lb then t_open_map st else if Ascii.eqb b c_rb then t_end true st
        else if Ascii.eqb b c_ls then t_open_array st else if Ascii.eqb b c_rs then t_end true st
        else if Ascii.eqb b c_com then t_end false st else Ok (t_add_val (utf8_of_byte b) st)
      else Ok (t_add_val (utf8_of_byte b) st))
     (let st := t_set_mode MValue (setc c st) in
      if negb (t_ps st)
      then if Ascii.eqb b c_lb then t_open_map st else if Ascii.eqb b c_rb then t_end true st
        else if Ascii.eqb b c_ls then t_open_array st else if Ascii.eqb b c_rs then t_end true st
        else if Ascii.eqb b c_com then t_end false st else Ok (t_add_val (utf8_of_byte b) st)
      else Ok (t_add_val (utf8_of_byte b) st))).
  { cbn zeta. change (t_set_mode MValue (setc c st)) with (setc c (t_set_mode MValue st)).
    change (t_ps (setc c (t_set_mode MValue st))) with (t_ps (t_set_mode MValue st)).
    destruct (negb _); [|eexists; reflexivity].
    destruct (Ascii.eqb b c_lb).
    { unfold t_open_map. cbn [setc t_set_mode t_tk t_tv t_stk t_root t_mode t_ps t_cnt t_errs].
      destruct (t_attach _ _); cbn [rbind sameres]; auto. eexists; reflexivity. }
    destruct (Ascii.eqb b c_rb); [apply sameres_end|].
    destruct (Ascii.eqb b c_ls).
    { unfold t_open_array. cbn [setc t_set_mode t_tk t_tv t_stk t_root t_mode t_ps t_cnt t_errs].
      destruct (t_stk st) as [|fa stk]; [reflexivity|]. destruct (t_attach _ _); cbn [rbind sameres]; auto. eexists; reflexivity. }
    destruct (Ascii.eqb b c_rs); [apply sameres_end|].
    destruct (Ascii.eqb b c_com); [apply sameres_end|eexists; reflexivity]. }
  destruct (t_mode st).
  - destruct (Ascii.eqb b c_rb).
    + unfold t_close_keys. cbn [setc t_tk t_tv t_stk t_root t_mode t_ps t_cnt t_errs].
      destruct (t_pop _ _); cbn [rbind sameres]; auto. eexists; reflexivity.
    + destruct q; eexists; reflexivity.
  - exists c. now destruct q.
  - exists c. now destruct (Ascii.eqb b c_col).
  - exact V.
  - destruct (true && _); [eexists; reflexivity|exact V].
Qed.

Lemma sameres_step prev b st c : sameres (t_step prev b st) (t_step prev b (setc c st)).
Proof.
  unfold t_step. set (q := Ascii.eqb b c_dq && _). clearbody q. cbn [setc t_ps t_mode].
  assert (S : forall ps x y, sameres (t_step_mode q b (t_set_ps ps x st)) (t_step_mode q b (t_set_ps ps y (setc c st)))).
  { intros ps x y. change (t_set_ps ps y (setc c st)) with (setc y (t_set_ps ps x st)). apply sameres_mode. }
  destruct (t_ps st); cbn [negb].
  - destruct q; [|apply sameres_mode]. cbn zeta. cbn [t_set_ps t_mode]. change (t_mode (setc c st)) with (t_mode st).
    destruct (t_mode st); try (apply (S false)).
    all: match goal with |- sameres (t_end false ?x) (t_end false ?y) => change y with (setc (t_cnt y) x) end; apply sameres_end.
  - destruct q; apply S.
Qed.

Lemma sameres_loop s : forall prev st c, sameres (t_loop prev s st) (t_loop prev s (setc c st)).
Proof.
  induction s as [|b s IH]; intros prev st c; cbn [t_loop]; [eexists; reflexivity|].
  pose proof (sameres_step prev b st c) as H. destruct (t_step prev b st) as [st'| | |]; cbn [sameres rbind] in *.
  - destruct H as (c' & ->). cbn [rbind]. apply IH.
  - now rewrite H.
  - now rewrite H.
  - now rewrite H.
Qed.

(** ** The reader and the machine *)
Lemma read_all_loop s : forall prev st r, follows st r ->
  match t_loop prev s st, read_all prev s r with
  | Ok st', Some r' => follows st' r'
  | Panic, None => True
  | _, _ => False
  end.
Proof.
  induction s as [|b s IH]; intros prev st r F; cbn [t_loop read_all]; auto.
  pose proof (agrees_step prev b st r F) as A. cbn zeta in A.
  destruct (t_step prev b st) as [st'| | |]; destruct (read_byte _ _ b r) as [r'|]; try contradiction; cbn [rbind]; auto.
  now apply IH.
Qed.

(** ** The machine above a base *)
Section Above.
  Context (A : att) (g : frame) (ga : att) (base : list (frame * att)) (R : root) (e0 : list err).

  Fixpoint exts (stk : list (frame * att)) : list (frame * att) :=
    match stk with
    | [] => (g, ga) :: base
    | [(f, _)] => (f, A) :: (g, ga) :: base
    | x :: t => x :: exts t
    end.

  (** The state above the base; when everything is closed, the object is put into the base. *)
  Definition lift (c : counts) (st : tst) : tst :=
    match t_stk st with
    | [] => let g' := match t_root st with RDone d => att_put A d g | _ => g end in
            TSt (t_next MValue [(g', ga)]) (t_ps st) (t_tk st) (t_tv st) ((g', ga) :: base) R c (e0 ++ t_errs st)
    | _ => TSt (t_mode st) (t_ps st) (t_tk st) (t_tv st) (exts (t_stk st)) R c (e0 ++ t_errs st)
    end.

  Definition lifted (x y : res tst) : Prop :=
    match x with
    | Ok st => (t_stk st <> [] -> t_root st = ROpen)
        /\ (t_stk st = [] -> exists d, t_root st = RDone d /\ t_tk st = [] /\ t_tv st = [])
        /\ exists c, y = Ok (lift c st)
    | _ => True
    end.

  Lemma exts_top f a t : exists a', exts ((f, a) :: t) = (f, a') :: exts t /\ (t <> [] -> a' = a).
  Proof. destruct t; [exists A; split; [reflexivity|congruence]|exists a; split; auto]. Qed.

  Lemma lift_open c st : t_stk st <> [] ->
    lift c st = TSt (t_mode st) (t_ps st) (t_tk st) (t_tv st) (exts (t_stk st)) R c (e0 ++ t_errs st).
  Proof. unfold lift. destruct (t_stk st); [congruence|reflexivity]. Qed.

  Lemma exts_put k od f a t : exts (put_top k od ((f, a) :: t)) = put_top k od (exts ((f, a) :: t)).
  Proof. destruct t; reflexivity. Qed.

  Lemma value_lift k v stk : stk <> [] ->
    match t_value k v stk with
    | Ok (s', e) => s' <> [] /\ (exists f a f' t, stk = (f, a) :: t /\ s' = (f', a) :: t /\ is_fmap f' = is_fmap f)
        /\ t_value k v (exts stk) = Ok (exts s', e)
    | _ => True
    end.
  Proof.
    destruct stk as [|[f a] t]; [congruence|]. intros _. unfold t_value. destruct (exts_top f a t) as (a' & E & _). rewrite E.
    destruct (value_text (is_fmap f) k v) as [[[k' p]|er]| | |]; cbn [rbind]; auto.
    - split; [discriminate|]. split; [|rewrite <- E, exts_put; auto].
      exists f, a, (put_doc k' (doc_of p) f), t. split; auto. split; auto. destruct (doc_of p), f; reflexivity.
    - split; [discriminate|]. split; [|now rewrite E]. exists f, a, f, t. auto.
  Qed.

  Lemma pop_lift stk : stk <> [] ->
    match t_pop stk ROpen with
    | Ok (s', r') =>
        match s' with
        | [] => exists d, r' = RDone d /\ t_pop (exts stk) R = Ok ((att_put A d g, ga) :: base, R)
        | _ => r' = ROpen /\ t_pop (exts stk) R = Ok (exts s', R)
        end
    | _ => True
    end.
  Proof.
    destruct stk as [|[f a] [|[f2 a2] t]]; [congruence| |]; intros _.
    - cbn. eexists. split; reflexivity.
    - cbn [t_pop]. split; auto. destruct t as [|x t]; reflexivity.
  Qed.

  Lemma attach_lift tk stk : stk <> [] -> t_attach tk (exts stk) = t_attach tk stk.
  Proof. destruct stk as [|[f a] t]; [congruence|]. intros _. destruct (exts_top f a t) as (a' & -> & _). reflexivity. Qed.

  Lemma next_lift m m' stk : stk <> [] -> t_next m (exts stk) = t_next m' stk.
  Proof. destruct stk as [|[f a] t]; [congruence|]. intros _. destruct (exts_top f a t) as (a' & -> & _). reflexivity. Qed.

  Lemma end_lift pop st c : t_stk st <> [] -> t_root st = ROpen -> lifted (t_end pop st) (t_end pop (lift c st)).
  Proof.
    intros N O. rewrite lift_open by auto. unfold t_end. cbn [t_tk t_tv t_stk t_root t_mode t_ps t_cnt t_errs].
    pose proof (value_lift (t_tk st) (t_tv st) (t_stk st) N) as V.
    destruct (t_value (t_tk st) (t_tv st) (t_stk st)) as [[s' e]| | |]; cbn [rbind]; try exact I.
    destruct V as (N' & _ & ->). cbn [rbind fst snd]. destruct pop.
    - rewrite O. pose proof (pop_lift s' N') as P. destruct (t_pop s' ROpen) as [[s2 r2]| | |]; cbn [rbind]; try exact I.
      cbn [fst snd]. destruct s2 as [|x s2].
      + destruct P as (d & -> & ->). cbn [rbind fst snd lifted t_stk t_root t_tk t_tv]. split; [congruence|]. split; [eauto|].
        exists c. unfold lift. cbn [t_stk t_root t_tk t_tv t_ps t_errs t_mode]. rewrite <- app_assoc. reflexivity.
      + destruct P as (-> & ->). cbn [rbind fst snd lifted t_stk t_root t_tk t_tv]. split; [auto|]. split; [congruence|].
        exists c. rewrite lift_open by discriminate. cbn [t_stk t_root t_tk t_tv t_ps t_errs t_mode]. rewrite <- app_assoc.
        now rewrite (next_lift _ (t_mode st) (x :: s2)) by discriminate.
    - cbn [rbind fst snd lifted t_stk t_root t_tk t_tv]. split; [auto|]. split; [congruence|]. exists c. rewrite lift_open by auto.
      cbn [t_stk t_root t_tk t_tv t_ps t_errs t_mode]. rewrite <- app_assoc. now rewrite (next_lift _ (t_mode st) s') by auto.
  Qed.

  Lemma lifted_plain st st' c : t_stk st' = t_stk st -> t_root st' = t_root st -> t_stk st <> [] -> t_root st = ROpen ->
    lifted (Ok st') (Ok (lift c st')).
  Proof. intros E1 E2 N O. cbn [lifted]. rewrite E1, E2. split; auto. split; [congruence|eauto]. Qed.

  Lemma mode_lift q b st c : R <> RNone -> t_stk st <> [] -> t_root st = ROpen -> lifted (t_step_mode q b st) (t_step_mode q b (lift c st)).
  Proof.
    intros RN N O. pose proof (lift_open c st N) as L. unfold t_step_mode.
    assert (t_mode (lift c st) = t_mode st) as -> by now rewrite L.
    assert (V : lifted
       (let st := t_set_mode MValue st in
        if negb (t_ps st)
        then if Ascii.eqb b c_lb then t_open_map st else if Ascii.eqb b c_rb then t_end true st
          else if Ascii.eqb b c_ls then t_open_array st else if Ascii.eqb b c_rs then t_end true st
          else if Ascii.eqb b c_com then t_end false st else Ok (t_add_val (utf8_of_byte b) st)
        else Ok (t_add_val (utf8_of_byte b) st))
       (let st := t_set_mode MValue (lift c st) in
        if negb (t_ps st)
        then if Ascii.eqb b c_lb then t_open_map st else if Ascii.eqb b c_rb then t_end true st
          else if Ascii.eqb b c_ls then t_open_array st else if Ascii.eqb b c_rs then t_end true st
          else if Ascii.eqb b c_com then t_end false st else Ok (t_add_val (utf8_of_byte b) st)
        else Ok (t_add_val (utf8_of_byte b) st))).
    { cbn zeta. assert (t_set_mode MValue (lift c st) = lift c (t_set_mode MValue st)) as ->.
      { rewrite L, lift_open by auto. reflexivity. }
      set (st1 := t_set_mode MValue st).
      assert (N1 : t_stk st1 <> []) by exact N. assert (O1 : t_root st1 = ROpen) by exact O.
      pose proof (lift_open c st1 N1) as L1.
      assert (t_ps (lift c st1) = t_ps st1) as -> by now rewrite L1.
      assert (AV : lifted (Ok (t_add_val (utf8_of_byte b) st1)) (Ok (t_add_val (utf8_of_byte b) (lift c st1)))).
      { replace (t_add_val (utf8_of_byte b) (lift c st1)) with (lift c (t_add_val (utf8_of_byte b) st1)).
        - eapply lifted_plain; eauto.
        - rewrite L1, lift_open by auto. reflexivity. }
      clearbody st1. clear L N O st. destruct (negb _); [|exact AV].
      destruct (Ascii.eqb b c_lb).
      { unfold t_open_map. rewrite L1. cbn [t_tk t_tv t_stk t_root t_mode t_ps t_cnt t_errs]. rewrite attach_lift by auto.
        destruct (t_attach (t_tk st1) (t_stk st1)) as [qq| | |]; cbn [rbind]; try exact I. cbn [lifted t_stk t_root]. rewrite O1.
        split; [auto|]. split; [discriminate|]. exists c. rewrite lift_open by discriminate. cbn [t_tk t_tv t_stk t_root t_mode t_ps t_cnt t_errs].
        rewrite <- app_assoc. destruct (t_stk st1) as [|x t]; [congruence|]. destruct R; [congruence|reflexivity|reflexivity]. }
      destruct (Ascii.eqb b c_rb); [now apply end_lift|].
      destruct (Ascii.eqb b c_ls).
      { unfold t_open_array. rewrite L1. cbn [t_tk t_tv t_stk t_root t_mode t_ps t_cnt t_errs].
        destruct (t_stk st1) as [|[f a] t] eqn:S; [congruence|]. destruct (exts_top f a t) as (a' & E & _).
        rewrite E, <- E, <- S, attach_lift by (rewrite S; discriminate).
        destruct (t_attach (t_tk st1) (t_stk st1)) as [qq| | |]; cbn [rbind]; try exact I. cbn [lifted t_stk t_root].
        split; [auto|]. split; [discriminate|]. exists c. rewrite lift_open by discriminate. cbn [t_tk t_tv t_stk t_root t_mode t_ps t_cnt t_errs].
        rewrite <- app_assoc. rewrite S. reflexivity. }
      destruct (Ascii.eqb b c_rs); [now apply end_lift|].
      destruct (Ascii.eqb b c_com); [now apply end_lift|exact AV]. }
    destruct (t_mode st) eqn:M.
    - destruct (Ascii.eqb b c_rb).
      + unfold t_close_keys. rewrite L. cbn [t_tk t_tv t_stk t_root t_mode t_ps t_cnt t_errs]. rewrite O.
        pose proof (pop_lift (t_stk st) N) as P. destruct (t_pop (t_stk st) ROpen) as [[s2 r2]| | |]; cbn [rbind]; try exact I.
        cbn [fst snd]. destruct s2 as [|x s2].
        * destruct P as (d & -> & ->). cbn [rbind fst snd lifted t_stk t_root t_tk t_tv]. split; [congruence|]. split; [eauto|].
          exists c. unfold lift. cbn [t_stk t_root t_tk t_tv t_ps t_errs t_mode]. reflexivity.
        * destruct P as (-> & ->). cbn [rbind fst snd lifted t_stk t_root t_tk t_tv]. split; [auto|]. split; [congruence|].
          exists c. rewrite lift_open by discriminate. cbn [t_stk t_root t_tk t_tv t_ps t_errs t_mode].
          now rewrite (next_lift _ (t_mode st) (x :: s2)) by discriminate.
      + destruct q.
        * replace (t_add_key (utf8_of_byte b) (t_set_mode MKeyName (lift c st))) with (lift c (t_add_key (utf8_of_byte b) (t_set_mode MKeyName st)))
            by (rewrite L, lift_open by auto; reflexivity).
          eapply lifted_plain with (st := st); eauto.
        * eapply lifted_plain with (st := st); eauto.
    - replace (t_add_key (utf8_of_byte b) (if q then t_set_mode MColumn (lift c st) else lift c st))
        with (lift c (t_add_key (utf8_of_byte b) (if q then t_set_mode MColumn st else st)))
        by (destruct q; rewrite L, lift_open by exact N; unfold t_add_key, t_set_mode; cbn [t_mode t_ps t_tk t_tv t_stk t_root t_cnt t_errs]; rewrite ?M; reflexivity).
      eapply lifted_plain with (st := st); eauto; now destruct q.
    - replace (if Ascii.eqb b c_col then t_set_mode MNext (lift c st) else lift c st)
        with (lift c (if Ascii.eqb b c_col then t_set_mode MNext st else st))
        by (destruct (Ascii.eqb b c_col); rewrite ?L, ?lift_open by exact N; unfold t_add_key, t_set_mode; cbn [t_mode t_ps t_tk t_tv t_stk t_root t_cnt t_errs]; rewrite ?M; reflexivity).
      eapply lifted_plain with (st := st); eauto; now destruct (Ascii.eqb b c_col).
    - exact V.
    - destruct (true && _); [eapply lifted_plain with (st := st); eauto|exact V].
  Qed.

  Lemma step_lift prev b st c : R <> RNone -> t_stk st <> [] -> t_root st = ROpen ->
    lifted (t_step prev b st) (t_step prev b (lift c st)).
  Proof.
    intros RN N O. pose proof (lift_open c st N) as L. unfold t_step. set (q := Ascii.eqb b c_dq && _). clearbody q.
    assert (t_ps (lift c st) = t_ps st) as -> by now rewrite L.
    assert (S : forall ps x y, t_set_ps ps y (lift c st) = lift y (t_set_ps ps x st)) by (intros; rewrite L, lift_open by auto; reflexivity).
    destruct (t_ps st); cbn [negb].
    - destruct q; [|now apply mode_lift].
      rewrite (S false (count_close (t_cnt st))). set (st1 := t_set_ps false (count_close (t_cnt st)) st).
      assert (N1 : t_stk st1 <> []) by exact N. assert (O1 : t_root st1 = ROpen) by exact O.
      match goal with |- context [lift ?x st1] => generalize x; intros c1 end. pose proof (lift_open c1 st1 N1) as L1.
      assert (t_mode (lift c1 st1) = t_mode st1) as -> by now rewrite L1.
      assert (AV : t_add_val (utf8_of_byte b) (lift c1 st1) = lift c1 (t_add_val (utf8_of_byte b) st1)) by (rewrite L1, lift_open by auto; reflexivity).
      destruct (t_mode st1); try (now apply mode_lift); rewrite AV; now apply end_lift.
    - destruct q; [rewrite (S true (count_open (t_cnt st)))|rewrite (S false (count_bracket b (t_cnt st)))]; now apply mode_lift.
  Qed.

  Lemma loop_lift s : forall prev st c r st', R <> RNone -> follows st r -> (t_stk st <> [] -> t_root st = ROpen) ->
    (t_stk st = [] -> exists d, t_root st = RDone d /\ t_tk st = [] /\ t_tv st = []) ->
    (exists r', read_open prev s r = Some r' /\ r_open r' = []) ->
    t_loop prev s st = Ok st' ->
    t_stk st' = [] /\ (exists d, t_root st' = RDone d /\ t_tk st' = [] /\ t_tv st' = [])
    /\ exists c', t_loop prev s (lift c st) = Ok (lift c' st').
  Proof.
    induction s as [|b s IH]; intros prev st c r st' RN F O1 O2 (r' & H & Hr) E; cbn [t_loop read_open] in *.
    - inversion E; inversion H; subst. destruct F as [_ _ _ FO _]. rewrite Hr in FO.
      assert (t_stk st' = []) as S by (destruct (t_stk st'); [auto|discriminate]). split; auto. split; [auto|eauto].
    - destruct (r_open r) as [|k o] eqn:RO; [discriminate|].
      assert (N : t_stk st <> []). { intros S. destruct F as [_ _ _ FO _]. rewrite RO, S in FO. discriminate. }
      pose proof (step_lift prev b st c RN N (O1 N)) as L. pose proof (agrees_step prev b st r F) as AG. cbn zeta in AG.
      destruct (t_step prev b st) as [st1| | |]; cbn [rbind] in E; try discriminate.
      destruct (read_byte _ _ b r) as [r1|]; [|contradiction]. cbn [lifted] in L. destruct L as (L1 & L2 & c1 & ->). cbn [rbind].
      eapply IH; eauto.
  Qed.
End Above.

(** ** One object text *)
Lemma outside_app a : forall prev q b,
  outside prev q (a ++ b) =
  (fst (outside prev q a) ++ fst (outside (lastp prev a) (snd (outside prev q a)) b),
   snd (outside (lastp prev a) (snd (outside prev q a)) b)).
Proof.
  induction a as [|c a IH]; intros prev q b; cbn [app outside lastp].
  - cbn [fst snd app]. now destruct (outside prev q b).
  - destruct (Ascii.eqb c c_dq && _); [apply IH|]. rewrite IH.
    destruct (outside (Some c) q a) as [o p]. cbn [fst snd]. now destruct q.
Qed.

Lemma loop_ps s : forall prev st st', t_loop prev s st = Ok st' -> t_ps st' = snd (outside prev (t_ps st) s).
Proof.
  induction s as [|b s IH]; intros prev st st' E; cbn [t_loop outside] in *; [now inversion E|].
  destruct (t_step prev b st) as [st1| | |] eqn:S; cbn [rbind] in E; try discriminate.
  apply t_step_cnt in S. cbn zeta in S. apply IH in E. rewrite E. unfold cnt_ps in S.
  destruct (Ascii.eqb b c_dq && _).
  - destruct (t_ps st); injection S as _ ->; reflexivity.
  - destruct (t_ps st); injection S as _ ->; match goal with |- context [outside ?x ?y s] => destruct (outside x y s) end; reflexivity.
Qed.

(** A whole text that is accepted, as the machine runs it alone. *)
Lemma whole_alone s d : whole s -> tparse s = Ok (GVal (Some d)) ->
  exists st, t_loop None s tst0 = Ok st /\ t_stk st = [] /\ t_root st = RDone d /\ t_errs st = [] /\ t_ps st = false
    /\ t_tk st = [] /\ t_tv st = [] /\ post_errs (t_cnt st) = [].
Proof.
  intros (t & r & -> & O & Hr) TP.
  assert (L : exists st, t_loop None (c_lb :: t) tst0 = Ok st /\ t_errs st = [] /\ post_errs (t_cnt st) = []
    /\ root_doc (collapse (t_stk st) (t_root st)) = Some d).
  { unfold tparse in TP. destruct (pre_errs (c_lb :: t)); [|discriminate].
    destruct (str_eqb_spec (c_lb :: t) (lit "{}")) as [E|E].
    - rewrite E. inversion TP; subst. vm_compute. eexists. split; [reflexivity|]. auto.
    - destruct (t_loop None (c_lb :: t) tst0) as [st| | |]; cbn [rbind] in TP; try discriminate.
      destruct (t_errs st) eqn:E1; [|discriminate]. destruct (post_errs (t_cnt st)) eqn:E2; [|discriminate]. inversion TP.
      exists st. auto. }
  destruct L as (st & L & E1 & E2 & RD). exists st. split; auto.
  pose proof L as L'. cbn [t_loop] in L.
  assert (S1 : t_step None c_lb tst0 = Ok (TSt MKeys false [] [] [(FMap [], ANone)] ROpen (count_bracket c_lb counts0) []))
    by reflexivity.
  rewrite S1 in L. cbn [rbind] in L.
  destruct (loop_lift ANone (FMap []) ANone [] ROpen [] t (Some c_lb) (TSt MKeys false [] [] [(FMap [], ANone)] ROpen (count_bracket c_lb counts0) [])
    counts0 (Reading PKeys false [] [KObject]) st
    ltac:(discriminate) ltac:(split; cbn; auto) ltac:(cbn; auto) ltac:(cbn; discriminate) ltac:(eauto) L)
    as (S & (d' & Rd & K & V) & _).
  rewrite S, Rd in RD. cbn in RD. inversion RD; subst. split; auto. split; auto. split; auto.
  split; [|auto]. rewrite (loop_ps _ _ _ _ L').
  pose proof (loop_counts _ _ _ _ L') as C. cbn [tst0 t_ps t_cnt] in *.
  unfold cadd in C. cbn [counts0 n_oq n_cq] in C. destruct C as (_ & _ & _ & _ & C).
  assert (n_oq (t_cnt st) = n_cq (t_cnt st)) as Q.
  { unfold post_errs in E2. apply app_eq_nil in E2 as [_ E2]. apply app_eq_nil in E2 as [_ E2].
    destruct (Nat.eqb_spec (n_oq (t_cnt st)) (n_cq (t_cnt st))); [auto|discriminate]. }
  destruct (snd (outside None false (c_lb :: t))); auto. cbn in C. lia.
Qed.

(** The same text where a value may begin. *)
Lemma whole_inside s d prev md tk tv f a stk R c e at_ er : whole s -> tparse s = Ok (GVal (Some d)) ->
  md = MNext \/ md = MValue -> R <> RNone -> t_attach tk ((f, a) :: stk) = Ok (at_, er) ->
  exists c', t_loop prev s (TSt md false tk tv ((f, a) :: stk) R c e)
    = Ok (TSt (t_next MValue [(f, a)]) false [] [] ((att_put at_ d f, a) :: stk) R c' (e ++ er)).
Proof.
  intros W TP M RN At. destruct (whole_alone s d W TP) as (st & L & S & Rd & E1 & Ps & K & V & _).
  destruct W as (t & r & -> & O & Hr). cbn [t_loop] in L |- *.
  assert (S1 : t_step None c_lb tst0 = Ok (TSt MKeys false [] [] [(FMap [], ANone)] ROpen (count_bracket c_lb counts0) []))
    by reflexivity.
  rewrite S1 in L. cbn [rbind] in L.
  assert (S2 : exists c2, t_step prev c_lb (TSt md false tk tv ((f, a) :: stk) R c e)
    = Ok (lift at_ f a stk R (e ++ er) c2 (TSt MKeys false [] [] [(FMap [], ANone)] ROpen (count_bracket c_lb counts0) []))).
  { exists (count_bracket c_lb c). unfold t_step. cbn [t_ps negb]. change (Ascii.eqb c_lb c_dq) with false. cbn [andb].
    unfold t_step_mode. cbn [t_mode t_set_ps andb t_cnt t_tk t_tv t_stk t_root t_errs].
    assert (B : Ascii.eqb c_lb c_sp || Ascii.eqb c_lb c_nl || Ascii.eqb c_lb c_cr || Ascii.eqb c_lb c_bs || Ascii.eqb c_lb c_tab = false)
      by reflexivity.
    assert (Op : t_open_map (TSt MValue false tk tv ((f, a) :: stk) R (count_bracket c_lb c) e)
      = Ok (lift at_ f a stk R (e ++ er) (count_bracket c_lb c) (TSt MKeys false [] [] [(FMap [], ANone)] ROpen (count_bracket c_lb counts0) []))).
    { unfold t_open_map. cbn [t_tk t_stk t_ps t_root t_cnt t_errs]. rewrite At. cbn [rbind fst snd]. unfold lift.
      cbn [t_mode t_tk t_tv t_stk t_ps t_root t_cnt t_errs exts]. rewrite app_nil_r. destruct R; [congruence|reflexivity|reflexivity]. }
    destruct M as [->| ->]; [rewrite B|]; cbn [andb t_set_mode t_ps t_tk t_tv t_stk t_root t_cnt t_errs negb]; rewrite ascii_eqb_refl; exact Op. }
  destruct S2 as (c2 & ->). cbn [rbind].
  destruct (loop_lift at_ f a stk R (e ++ er) t (Some c_lb) (TSt MKeys false [] [] [(FMap [], ANone)] ROpen (count_bracket c_lb counts0) [])
    c2 (Reading PKeys false [] [KObject]) st
    RN ltac:(split; cbn; auto) ltac:(cbn; auto) ltac:(cbn; discriminate) ltac:(eauto) L) as (_ & _ & c' & E).
  exists c'. rewrite E. unfold lift. rewrite S, Rd, K, V, E1, Ps. rewrite app_nil_r.
  f_equal. f_equal. destruct at_, f; reflexivity.
Qed.

Lemma whole_last s d : tparse s = Ok (GVal (Some d)) -> has_prefix [c_lb] s = true /\ exists u, s = u ++ [c_rb].
Proof.
  unfold tparse. destruct (pre_errs s) eqn:E; [|discriminate]. intros _. unfold pre_errs in E.
  apply app_eq_nil in E as [_ E]. apply app_eq_nil in E as [E1 E2].
  destruct (has_prefix [c_lb] s); [|discriminate]. split; auto.
  destruct (has_suffix [c_rb] s) eqn:S; [|discriminate].
  destruct (list_last_case s) as [->|(l & x & ->)]; [discriminate|].
  rewrite has_suffix1_app in S. apply Ascii.eqb_eq in S. subst. eauto.
Qed.

(** ** Replacing one object text by another *)
Lemma root_inv_step prev b st st' : (t_root st = RNone -> t_stk st = []) -> t_step prev b st = Ok st' ->
  t_root st' = RNone -> t_stk st' = [].
Proof.
  assert (P : forall s r s' r', (r = RNone -> s = []) -> t_pop s r = Ok (s', r') -> r' = RNone -> s' = []).
  { intros [|[f a] [|[f2 a2] t]] r s' r' H E; cbn in E; inversion E; subst; auto. intros ->. specialize (H eq_refl). discriminate. }
  assert (En : forall pop st st', (t_root st = RNone -> t_stk st = []) -> t_end pop st = Ok st' -> t_root st' = RNone -> t_stk st' = []).
  { clear - P. intros pop st st' H. unfold t_end. destruct (t_value (t_tk st) (t_tv st) (t_stk st)) as [[s' e]| | |] eqn:V; cbn [rbind]; try discriminate.
    assert (H' : t_root st = RNone -> s' = []).
    { intros Q. rewrite (H Q) in V. cbn in V. now inversion V. }
    cbn [fst snd]. destruct pop.
    - destruct (t_pop s' (t_root st)) as [[s2 r2]| | |] eqn:Q; cbn [rbind]; try discriminate. intros E. inversion E; subst. cbn. eapply P; eauto.
    - cbn [rbind]. intros E. inversion E; subst. cbn. auto. }
  assert (Mo : forall q b st st', (t_root st = RNone -> t_stk st = []) -> t_step_mode q b st = Ok st' -> t_root st' = RNone -> t_stk st' = []).
  { clear - P En. intros q b st st' H. unfold t_step_mode.
    assert (V : (let st := t_set_mode MValue st in
        if negb (t_ps st)
        then if Ascii.eqb b c_lb then t_open_map st else if Ascii.eqb b c_rb then t_end true st
          else if Ascii.eqb b c_ls then t_open_array st else if Ascii.eqb b c_rs then t_end true st
          else if Ascii.eqb b c_com then t_end false st else Ok (t_add_val (utf8_of_byte b) st)
        else Ok (t_add_val (utf8_of_byte b) st)) = Ok st' -> t_root st' = RNone -> t_stk st' = []).
    { cbn zeta. destruct (negb _); [|intros E; inversion E; exact H].
      destruct (Ascii.eqb b c_lb).
      { unfold t_open_map. destruct (t_attach _ _); cbn [rbind]; try discriminate. intros E; inversion E; subst. cbn. destruct (t_root st); discriminate. }
      destruct (Ascii.eqb b c_rb); [now apply En|].
      destruct (Ascii.eqb b c_ls).
      { unfold t_open_array. cbn [t_set_mode t_stk t_tk]. destruct (t_stk st) as [|x t] eqn:S; [discriminate|].
        destruct (t_attach _ _); cbn [rbind]; try discriminate. intros E; inversion E; subst. cbn. intros Q. specialize (H Q). discriminate. }
      destruct (Ascii.eqb b c_rs); [now apply En|].
      destruct (Ascii.eqb b c_com); [now apply En|intros E; inversion E; exact H]. }
    destruct (t_mode st).
    - destruct (Ascii.eqb b c_rb).
      + unfold t_close_keys. destruct (t_pop (t_stk st) (t_root st)) as [[s2 r2]| | |] eqn:Q; cbn [rbind]; try discriminate.
        intros E; inversion E; subst. cbn. eapply P; eauto.
      + destruct q; intros E; inversion E; subst; exact H.
    - intros E; inversion E; subst. now destruct q.
    - intros E; inversion E; subst. now destruct (Ascii.eqb b c_col).
    - exact V.
    - destruct (true && _); [intros E; inversion E; subst; exact H|exact V]. }
  intros H. unfold t_step. set (q := Ascii.eqb b c_dq && _). clearbody q. destruct (t_ps st); cbn [negb].
  - destruct q; [|now apply Mo]. cbn zeta. cbn [t_set_ps t_mode]. destruct (t_mode st); try (apply Mo; exact H); apply En; exact H.
  - destruct q; apply Mo; exact H.
Qed.

Lemma root_inv s : forall prev st st', (t_root st = RNone -> t_stk st = []) -> t_loop prev s st = Ok st' ->
  t_root st' = RNone -> t_stk st' = [].
Proof.
  induction s as [|b s IH]; intros prev st st' H E; cbn [t_loop] in E; [inversion E; subst; auto|].
  destruct (t_step prev b st) as [st1| | |] eqn:S; cbn [rbind] in E; try discriminate.
  eapply IH; [|exact E]. intros Rn. exact (root_inv_step _ _ _ _ H S Rn).
Qed.

(** The state where a value may begin. *)
Lemma before_value_state p : before_value p ->
  exists md tk tv f a stk R c e at_ er, t_loop None p tst0 = Ok (TSt md false tk tv ((f, a) :: stk) R c e)
    /\ (md = MNext \/ md = MValue) /\ R <> RNone /\ t_attach tk ((f, a) :: stk) = Ok (at_, er).
Proof.
  intros (r & E & O & Q & P). pose proof (read_all_loop p None tst0 start follows_start) as F. rewrite E in F.
  destruct (t_loop None p tst0) as [st| | |] eqn:L; try contradiction. destruct F as [F1 F2 F3 F4 F5].
  assert (N : t_root st <> RNone).
  { intros Rn. apply (root_inv p None tst0 st) in Rn; auto. rewrite F4, Rn in O. now apply O. }
  destruct st as [md ps tk tv stk R c e]. cbn [t_mode t_ps t_tk t_tv t_stk t_root] in *.
  destruct stk as [|[f a] stk]; [now rewrite F4 in O|]. rewrite Q in F2. subst ps.
  assert (M : md = MNext \/ md = MValue) by (destruct md; cbn in F1; rewrite F1 in P; destruct P; try discriminate; auto).
  destruct (attach_ok (TSt MValue false tk tv ((f, a) :: stk) R c e)) as (at_ & er & At); auto.
  { unfold key_ok in *. cbn [t_mode t_tk t_stk] in *. destruct M as [-> | ->]; exact F5. }
  exists md, tk, tv, f, a, stk, R, c, e, at_, er. auto.
Qed.

Lemma balanced_whole s d : tparse s = Ok (GVal (Some d)) -> whole s -> forall prev,
  let o := fst (outside prev false s) in
  occurrences c_lb o = occurrences c_rb o /\ occurrences c_ls o = occurrences c_rs o /\ snd (outside prev false s) = false.
Proof.
  intros TP W prev. destruct (whole_alone s d W TP) as (st & L & _ & _ & _ & Ps & _ & _ & PE).
  destruct W as (t & r & -> & _). assert (outside prev false (c_lb :: t) = outside None false (c_lb :: t)) as -> by reflexivity.
  pose proof (loop_counts _ _ _ _ L) as C. pose proof (loop_ps _ _ _ _ L) as Q. cbn [tst0 t_ps t_cnt] in *. rewrite Ps in Q.
  cbn zeta. unfold cadd in C. cbn [counts0 n_lb n_rb n_ls n_rs n_oq n_cq] in C.
  unfold post_errs in PE. apply app_eq_nil in PE as [P1 PE]. apply app_eq_nil in PE as [P2 _].
  destruct (Nat.eqb_spec (n_lb (t_cnt st)) (n_rb (t_cnt st))) as [E1|]; [|discriminate].
  destruct (Nat.eqb_spec (n_ls (t_cnt st)) (n_rs (t_cnt st))) as [E2|]; [|discriminate].
  split; [lia|]. split; [lia|]. auto.
Qed.

Lemma eqb_same a b c d : (a = b <-> c = d) -> Nat.eqb a b = Nat.eqb c d.
Proof. intros H. destruct (Nat.eqb_spec a b), (Nat.eqb_spec c d); auto; tauto. Qed.

Lemma tparse_replace p q s s' d : before_value p -> whole s -> whole s' ->
  tparse s = Ok (GVal (Some d)) -> tparse s' = Ok (GVal (Some d)) -> tparse (p ++ s ++ q) = tparse (p ++ s' ++ q).
Proof.
  intros B W W' T T'.
  destruct (whole_last s d T) as (_ & u & Hu). destruct (whole_last s' d T') as (_ & u' & Hu').
  assert (Hp : p <> []). { intros ->. destruct B as (r & E & O & _). cbn in E. inversion E; subst. now apply O. }
  assert (L2 : forall w, whole w -> (exists u, w = u ++ [c_rb]) -> forall q, str_eqb (p ++ w ++ q) (lit "{}") = false).
  { clear - Hp. intros w (t & r & E & _) (u & Hu) q. destruct (str_eqb_spec (p ++ w ++ q) (lit "{}")) as [H|]; auto. exfalso.
    assert (2 <= length w)%nat. { rewrite Hu in E |- *. destruct u; [discriminate|]. rewrite app_length. cbn. lia. }
    apply (f_equal (@length ascii)) in H. rewrite !app_length in H. cbn in H. destruct p; [congruence|]. cbn in H. lia. }
  assert (PE : pre_errs (p ++ s ++ q) = pre_errs (p ++ s' ++ q)).
  { unfold pre_errs. destruct p as [|c p]; [congruence|]. cbn [app]. rewrite !has_prefix1. f_equal. f_equal.
    destruct (list_last_case q) as [->|(l & x & ->)].
    - rewrite !app_nil_r, Hu, Hu', !app_comm_cons, !app_assoc, !has_suffix1_app. reflexivity.
    - rewrite !app_comm_cons, !app_assoc, !has_suffix1_app. reflexivity. }
  unfold tparse. rewrite <- PE. destruct (pre_errs (p ++ s ++ q)); auto.
  rewrite (L2 s W ltac:(eauto)), (L2 s' W' ltac:(eauto)).
  destruct (before_value_state p B) as (md & tk & tv & f & a & stk & R & c & e & at_ & er & Lp & M & RN & At).
  destruct (whole_inside s d (lastp None p) md tk tv f a stk R c e at_ er W T M RN At) as (c1 & L1).
  destruct (whole_inside s' d (lastp None p) md tk tv f a stk R c e at_ er W' T' M RN At) as (c2 & L2').
  set (fin := fun c => TSt (t_next MValue [(f, a)]) false [] [] ((att_put at_ d f, a) :: stk) R c (e ++ er)) in *.
  assert (E1 : t_loop None (p ++ s ++ q) tst0 = t_loop (Some c_rb) q (fin c1)).
  { rewrite (t_loop_ok p _ _ _ _ Lp), (t_loop_ok s _ _ _ _ L1). rewrite Hu, lastp_snoc. reflexivity. }
  assert (E2 : t_loop None (p ++ s' ++ q) tst0 = t_loop (Some c_rb) q (setc c2 (fin c1))).
  { rewrite (t_loop_ok p _ _ _ _ Lp), (t_loop_ok s' _ _ _ _ L2'). rewrite Hu', lastp_snoc. reflexivity. }
  pose proof (sameres_loop q (Some c_rb) (fin c1) c2) as S.
  rewrite <- E2, <- E1 in S. destruct (t_loop None (p ++ s ++ q) tst0) as [st| | |] eqn:Ls; cbn [sameres] in S.
  2-4: rewrite S; reflexivity.
  destruct S as (c3 & S). rewrite S. cbn [rbind setc t_errs t_cnt t_stk t_root]. destruct (t_errs st); auto.
  assert (post_errs (t_cnt st) = post_errs c3) as ->; auto.
  pose proof (loop_counts _ _ _ _ Ls) as C1. pose proof (loop_counts _ _ _ _ S) as C2.
  cbn [tst0 t_ps t_cnt setc] in C1, C2. rewrite !outside_app in C1, C2. cbn [fst snd] in C1, C2.
  assert (Qp : snd (outside None false p) = false) by (pose proof (loop_ps _ _ _ _ Lp) as Q; cbn in Q; auto). rewrite Qp in *.
  destruct (balanced_whole s d T W (lastp None p)) as (B1 & B2 & B3). destruct (balanced_whole s' d T' W' (lastp None p)) as (B1' & B2' & B3').
  rewrite B3 in C1. rewrite B3' in C2.
  assert (La : lastp (lastp None p) s = Some c_rb) by now rewrite Hu, lastp_snoc.
  assert (La' : lastp (lastp None p) s' = Some c_rb) by now rewrite Hu', lastp_snoc. rewrite La in C1. rewrite La' in C2.
  unfold cadd in C1, C2. rewrite !occ_app in C1, C2. cbn [counts0 n_lb n_rb n_ls n_rs n_oq n_cq] in C1, C2.
  revert B1 B2 B1' B2' C1 C2. 
  generalize (fst (outside (lastp None p) false s)) (fst (outside (lastp None p) false s')) (fst (outside None false p))
    (outside (Some c_rb) false q). clear. intros o o' op oq B1 B2 B1' B2' C1 C2. unfold post_errs.
  rewrite (eqb_same (n_lb (t_cnt st)) (n_rb (t_cnt st)) (n_lb c3) (n_rb c3)) by lia.
  rewrite (eqb_same (n_ls (t_cnt st)) (n_rs (t_cnt st)) (n_ls c3) (n_rs c3)) by lia.
  rewrite (eqb_same (n_oq (t_cnt st)) (n_cq (t_cnt st)) (n_oq c3) (n_cq c3)) by lia. reflexivity.
Qed.

Lemma same_tree X h s s' : reachable X h -> tparse s = tparse s' ->
  (Parse X s h = Panic <-> Parse X s' h = Panic) /\ forall r, parses X h s r <-> parses X h s' r.
Proof.
  assert (H : forall s s', reachable X h -> tparse s = tparse s' ->
    (Parse X s h = Panic -> Parse X s' h = Panic) /\ forall r, parses X h s r -> parses X h s' r).
  { clear. intros s s' R E. destruct (tparse s) as [[od|e]| | |] eqn:T; symmetry in E.
    - destruct od as [d|].
      + pose proof (parses_tree X h s (GVal d) R T) as A. pose proof (parses_tree X h s' (GVal d) R E) as B.
        split; [|intros r C; now rewrite (parses_fun _ _ _ _ _ C A)].
        destruct A as (h1 & m & A & _). congruence.
      + exfalso. pose proof (parse_refines X h s R) as A. now rewrite T in A.
    - pose proof (parses_tree X h s (GErr e) R T) as A. pose proof (parses_tree X h s' (GErr e) R E) as B.
      split; [|intros r C; now rewrite (parses_fun _ _ _ _ _ C A)].
      destruct A as (_ & h1 & A & _). congruence.
    - pose proof (parse_panic X h s R T) as A. split; [intros _; now apply parse_panic|].
      intros [d|e] C; [destruct C as (h1 & m & C & _)|destruct C as (_ & h1 & C & _)]; congruence.
    - exfalso. pose proof (parse_refines X h s R) as A. now rewrite T in A.
    - exfalso. pose proof (parse_refines X h s R) as A. now rewrite T in A. }
  intros R E. destruct (H s s' R E) as [A B]. destruct (H s' s R (eq_sym E)) as [A' B'].
  split; [split; auto|]. intros r. split; auto.
Qed.

Lemma tree_of X h s d : reachable X h -> parses X h s (GVal d) -> tparse s = Ok (GVal (Some d)).
Proof.
  intros R P. destruct (tparse s) as [[od|e]| | |] eqn:T.
  - destruct od as [d'|].
    + pose proof (parses_tree X h s (GVal d') R T) as A. pose proof (parses_fun _ _ _ _ _ P A) as E. now inversion E.
    + exfalso. pose proof (parse_refines X h s R) as A. now rewrite T in A.
  - pose proof (parses_tree X h s (GErr e) R T) as A. pose proof (parses_fun _ _ _ _ _ P A) as E. discriminate.
  - pose proof (parse_panic X h s R T) as A. destruct P as (h1 & m & P & _). congruence.
  - exfalso. pose proof (parse_refines X h s R) as A. now rewrite T in A.
  - exfalso. pose proof (parse_refines X h s R) as A. now rewrite T in A.
Qed.

Lemma replace_text X h p q s s' d : reachable X h -> before_value p -> whole s -> whole s' ->
  parses X h s (GVal d) -> parses X h s' (GVal d) ->
  (Parse X (p ++ s ++ q) h = Panic <-> Parse X (p ++ s' ++ q) h = Panic)
  /\ forall r, parses X h (p ++ s ++ q) r <-> parses X h (p ++ s' ++ q) r.
Proof.
  intros R B W W' P P'. apply same_tree; auto. apply (tparse_replace p q s s' d); auto; eapply tree_of; eauto.
Qed.
