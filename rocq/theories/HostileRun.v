(** * The parser on the texts of documents with strings that end in a backslash *)
From Coq Require Import Ascii String List NArith ZArith Bool Arith Lia.
From Verif Require Import GoStr GoNum GoFloat Heap Common ValueModel ArrayModel MapModel JsonModel ParserModel
  StrLemmas SpecDict DictLemmas SpecNum NumLemmas SpecWorld Inv World Reach SpecFloat FloatFacts SpecDoc RepFacts
  SpecText SpecToken TreeParser ParseWorld ParseRefine ParseTop TokenFacts SpecParse ParseFacts PosFacts TypedFacts
  TextDec ParseMore TidyFacts SpecRender RenderFacts ShowFacts SpecRound RoundFacts SerialFacts SpecHostile HostileFacts
  TextRun.
Import ListNotations.

(** ** Members that end in a comma *)
Definition member_text (kv : str * jtext) : str := TextRun.quoted (fst kv) ++ [c_col] ++ text_of (snd kv) ++ [c_com].

Definition good (kv : str * jtext) (kd : str * doc) : Prop :=
  body_ok (fst kv) /\ text_ok false (snd kv) /\ value_of T0 (snd kv) = (Some (snd kd), [])
  /\ key_of (fst kv) (snd kv) = fst kd.

Lemma agrees l : Forall (tok_agrees T0) l.
Proof. apply Forall_forall. intros t _. apply T0_agrees. Qed.

Lemma dict_set_new {A} ms k (d : A) : ~ In k (map fst ms) -> dict_set ms k d = ms ++ [(k, d)].
Proof.
  induction ms as [|[a b] ms IH]; intros N; [reflexivity|]. cbn in *. destruct (str_eqb_spec a k) as [->|]; [tauto|].
  f_equal. apply IH. tauto.
Qed.

Lemma one_member k v d es a prev stk r c :
  good (k, v) (key_of k v, d) -> prev <> Some c_bs -> r <> RNone ->
  exists c', cbal c c'
    /\ t_loop prev (member_text (k, v)) (TSt MKeys false [] [] ((FMap es, a) :: stk) r c [])
       = Ok (TSt MKeys false [] [] ((FMap (dict_set es (key_of k v) d), a) :: stk) r c' []).
Proof.
  intros (B & V & W & _) P R. cbn [fst snd] in *. unfold member_text. cbn [fst snd].
  set (c1 := count_close (count_open c)). assert (Cb1 : cbal c c1) by apply count_q.
  assert (K : key_fits (FMap es) k (TextRun.quoted (latin1 k))) by (split; auto).
  assert (H : forall rest, t_loop prev (TextRun.quoted k ++ [c_col] ++ rest) (TSt MKeys false [] [] ((FMap es, a) :: stk) r c [])
     = t_loop (Some c_col) rest (TSt MNext false (TextRun.quoted (latin1 k)) [] ((FMap es, a) :: stk) r c1 [])).
  { intros rest. pose proof (member_head [] k [] prev ((FMap es, a) :: stk) r c [] ltac:(constructor) B ltac:(constructor) P) as M.
    cbn [app] in M. rewrite app_assoc, (t_loop_ok _ _ _ _ _ M), lastp_snoc. reflexivity. }
  rewrite H. destruct (is_token v) eqn:Tv.
  - destruct v as [t| | |]; try discriminate. cbn [text_of text_ok] in *.
    destruct (token_run t [] [] (Some c_col) (TextRun.quoted (latin1 k)) ((FMap es, a) :: stk) r c1 [] ltac:(constructor) V ltac:(constructor))
      as (md & tv & M & TV & Lp). cbn [app] in Lp. rewrite app_nil_r in Lp.
    destruct (token_value T0 t [] tv (T0_agrees t) V ltac:(constructor) TV) as [TM ND].
    exists c1. split; auto. rewrite (t_loop_ok _ _ _ _ _ Lp). cbn [t_loop].
    rewrite (token_end T0 (FMap es) a k _ tv t _ stk r c1 [] md c_com false) by auto.
    rewrite W. cbn [fst snd rbind put_doc app t_next is_fmap key_of]. change (count_bracket c_com c1) with c1. reflexivity.
  - destruct (proj1 (run_all T0) v (FMap es) a k (TextRun.quoted (latin1 k)) (Some c_col) stk r c1 [] V (agrees _) Tv ltac:(discriminate) K R)
      as (c2 & Cb2 & Ln & d2 & er & W2 & L). rewrite W in W2. inversion W2; subst. cbn [app] in L.
    exists c2. split; [eapply cbal_trans; eauto|]. rewrite (t_loop_ok _ _ _ _ _ L). cbn [put_doc TextRun.after is_fmap].
    apply (keys_gap [c_com]). constructor; [|constructor]. intros [Q|[Q|[Q|[Q|Q]]]]; discriminate Q.
Qed.

Lemma member_text_last prev kv : lastp prev (member_text kv) = Some c_com.
Proof. unfold member_text. now rewrite !app_assoc, lastp_snoc. Qed.

Lemma open_members l ds : Forall2 good l ds -> forall es a prev stk r c,
  NoDup (map fst (es ++ ds)) -> prev <> Some c_bs -> r <> RNone ->
  exists c', cbal c c' /\ lastp prev (flat_map member_text l) <> Some c_bs
    /\ t_loop prev (flat_map member_text l) (TSt MKeys false [] [] ((FMap es, a) :: stk) r c [])
       = Ok (TSt MKeys false [] [] ((FMap (es ++ ds), a) :: stk) r c' []).
Proof.
  induction 1 as [|[k v] [k' d] l ds G _ IH]; intros es a prev stk r c N P R.
  - exists c. split; [apply cbal_refl|]. rewrite app_nil_r. auto.
  - pose proof G as (B & V & W & K). cbn [fst snd] in *. subst k'.
    destruct (one_member k v d es a prev stk r c G P R) as (c1 & C1 & L1).
    cbn [flat_map]. rewrite lastp_app, (t_loop_ok _ _ _ _ _ L1), member_text_last.
    assert (~ In (key_of k v) (map fst es)) as N'.
    { rewrite map_app in N. cbn [map fst] in N. apply NoDup_remove_2 in N. intros Q. apply N, in_or_app. auto. }
    rewrite dict_set_new by auto.
    destruct (IH (es ++ [(key_of k v, d)]) a (Some c_com) stk r c1) as (c2 & C2 & L2 & L3); auto.
    { now rewrite <- app_assoc. } { discriminate. }
    exists c2. split; [eapply cbal_trans; eauto|]. split; auto. rewrite L3, <- app_assoc. reflexivity.
Qed.

(** ** The members of documents *)
Definition jm (kd : str * doc) : str * jtext := (esc (fst kd), jt (snd kd)).

Lemma members_back is64 l : Forall (fun kd => proper is64 (snd kd)) l -> writable (DMap l) ->
  Forall (fun kd => distinct (snd kd)) l ->
  exists ds, Forall2 (fun kd kd' => fst kd = fst kd' /\ comes_back (snd kd) (snd kd')) l ds
    /\ Forall2 good (map jm l) ds /\ map fst ds = map fst l.
Proof.
  intros P W D. inversion W as [| | | | | |? W']; subst. clear W. induction l as [|[k x] l IH].
  - exists []. repeat split; constructor.
  - inversion P; inversion W' as [|? ? (S & Q & Wx)]; inversion D; subst. cbn [fst snd] in *.
    destruct IH as (ds & C & V & K); auto. destruct (jt_back is64 x) as (d & C1 & V1); auto.
    exists ((k, d) :: ds). split; [constructor; auto|]. split; [|cbn; congruence]. cbn [map]. constructor; auto.
    unfold good, jm. cbn [fst snd]. split; [apply body_esc, S|].
    split. { apply (proj1 strict_lenient_all). eapply jt_ok; eauto. }
    split; auto. destruct S as [A B]. destruct (jt_kind x) as [G|G].
    + specialize (Q G). assert (key_of (esc k) (jt x) = latin1 (esc k)) as ->. { destruct x as [|[]| | | |]; auto; destruct G. }
      rewrite esc_nodq by auto. now apply latin1_ascii.
    + rewrite G. now apply string_back.
Qed.

Definition mt (kd : str * doc) : str := quote (fst kd) ++ [c_col] ++ render (snd kd).
Definition sep (l : list (str * doc)) : str := match l with [] => [] | _ => [c_com] ++ commas (map mt l) end.

Lemma commas_open before x rest :
  commas (map mt (before ++ x :: rest)) = flat_map member_text (map jm before) ++ mt x ++ sep rest.
Proof.
  induction before as [|y before IH].
  - cbn [app map flat_map]. rewrite commas_cons. unfold sep. destruct rest; cbn [map]; reflexivity.
  - cbn [app map flat_map]. rewrite commas_cons, IH. rewrite <- (app_assoc (member_text (jm y))).
    assert (member_text (jm y) = mt y ++ [c_com]) as ->.
    { unfold member_text, jm, mt, TextRun.quoted. cbn [fst snd]. rewrite text_jt, quote_esc.
      cbn [app]. repeat (rewrite <- app_assoc; cbn [app]). reflexivity. }
    destruct (map mt (before ++ x :: rest)) eqn:Q; [destruct before; discriminate|].
    rewrite <- !app_assoc. reflexivity.
Qed.

Lemma sep_cons x rest : sep (x :: rest) = [c_com] ++ mt x ++ sep rest.
Proof. unfold sep at 1. change (x :: rest) with ([] ++ x :: rest). now rewrite commas_open. Qed.

Lemma esc_app a b : esc (a ++ b) = esc a ++ esc b.
Proof. induction a as [|c a IH]; [reflexivity|]. cbn [app]. rewrite !esc_cons, IH. now rewrite app_assoc. Qed.

(** The comma and the double quote after the string are read as part of it. *)
Lemma swallow k1 t1 k2 d2 rest :
  mt (k1, dstr (t1 ++ [c_bs])) ++ sep ((k2, d2) :: rest)
  = TextRun.quoted (esc k1) ++ [c_col] ++ TextRun.quoted (esc (t1 ++ [c_dq; c_com]))
    ++ esc k2 ++ [c_dq; c_col] ++ render d2 ++ sep rest.
Proof.
  rewrite sep_cons. unfold mt, dstr, TextRun.quoted. cbn [fst snd render scalar_json].
  rewrite <- (quote_quoted (t1 ++ [c_bs])), !quote_esc, !esc_app.
  change (esc [c_bs]) with [c_bs]. change (esc [c_dq; c_com]) with [c_bs; c_dq; c_com].
  cbn [app]. repeat (rewrite <- app_assoc; cbn [app]). reflexivity.
Qed.

Lemma hostile_head k1 t1 es a prev stk r c rest : body_ok (esc k1) -> prev <> Some c_bs ->
  exists c', cbal c c'
    /\ t_loop prev (TextRun.quoted (esc k1) ++ [c_col] ++ TextRun.quoted (esc (t1 ++ [c_dq; c_com])) ++ rest)
         (TSt MKeys false [] [] ((FMap es, a) :: stk) r c [])
       = t_loop (Some c_dq) rest
           (TSt MKeys false [] [] ((FMap (dict_set es (unescape (latin1 (esc k1)))
                                            (dstr (unescape (latin1 (esc (t1 ++ [c_dq; c_com])))))), a) :: stk) r c' []).
Proof.
  intros B P. set (c1 := count_close (count_open c)). exists (count_close (count_open c1)).
  split. { eapply cbal_trans; apply count_q. }
  pose proof (member_head [] (esc k1) [] prev ((FMap es, a) :: stk) r c [] ltac:(constructor) B ltac:(constructor) P) as M.
  cbn [app] in M. rewrite app_assoc, (t_loop_ok _ _ _ _ _ M), lastp_snoc. fold c1.
  assert (K : key_fits (FMap es) (esc k1) (TextRun.quoted (latin1 (esc k1)))) by (split; auto).
  assert (B2 : body_ok (esc (t1 ++ [c_dq; c_com]))).
  { apply body_esc. intros u Q. change [c_dq; c_com] with ([c_dq] ++ [c_com]) in Q. rewrite app_assoc in Q.
    apply app_inj_tail in Q as [_ Q]. discriminate. }
  pose proof (string_run (FMap es) a (esc k1) (TextRun.quoted (latin1 (esc k1))) (esc (t1 ++ [c_dq; c_com])) (Some c_col) stk r c1 []
    ltac:(discriminate) K B2) as L.
  rewrite (t_loop_ok _ _ _ _ _ L). unfold TextRun.quoted at 1. rewrite app_comm_cons, lastp_snoc. reflexivity.
Qed.

(** ** From the text to the outcome *)
Definition opened (es : list (str * doc)) (c : counts) : tst := TSt MKeys false [] [] [(FMap es, ANone)] ROpen c [].
Definition concludes (st : tst) : res (gres (option doc)) :=
  match t_errs st with
  | (_ :: _) as e => Ok (GErr e)
  | [] => match post_errs (t_cnt st) with
          | (_ :: _) as e => Ok (GErr e)
          | [] => Ok (GVal (root_doc (collapse (t_stk st) (t_root st))))
          end
  end.

Lemma tparse_object s : s <> [] ->
  tparse ([c_lb] ++ s ++ [c_rb])
  = (st <-r t_loop (Some c_lb) (s ++ [c_rb]) (opened [] (count_bracket c_lb counts0)) ;; concludes st).
Proof.
  intros N. unfold tparse.
  assert (pre_errs ([c_lb] ++ s ++ [c_rb]) = []) as ->.
  { unfold pre_errs. cbn [app]. rewrite has_prefix1, ascii_eqb_refl, app_comm_cons, has_suffix1_app, ascii_eqb_refl. reflexivity. }
  destruct (str_eqb_spec ([c_lb] ++ s ++ [c_rb]) (lit "{}")) as [E|E].
  { exfalso. cbn in E. inversion E as [E']. destruct s as [|x t]; [contradiction|]. cbn in E'. inversion E'; subst. destruct t; discriminate. }
  reflexivity.
Qed.

Lemma balanced c : cbal (count_bracket c_rb (count_bracket c_lb counts0)) c -> post_errs c = [].
Proof.
  intros Cb. unfold post_errs. unfold cbal in Cb. cbn in Cb.
  assert (n_lb c = n_rb c /\ n_ls c = n_rs c /\ n_oq c = n_cq c) as (-> & -> & ->) by lia. now rewrite !Nat.eqb_refl.
Qed.

(** The whole text up to the string that ends in a backslash. *)
Lemma hostile_start is64 before k1 t1 k2 d2 rest :
  Forall (fun kd => proper is64 (snd kd)) before -> writable (DMap before) ->
  Forall (fun kd => distinct (snd kd)) before -> NoDup (map fst before ++ [k1]) -> safe k1 ->
  exists before' c, comes_back (DMap before) (DMap before') /\ map fst before' = map fst before
    /\ cbal (count_bracket c_lb counts0) c
    /\ tparse (render (DMap (before ++ (k1, dstr (t1 ++ [c_bs])) :: (k2, d2) :: rest)))
       = (st <-r t_loop (Some c_dq) ((esc k2 ++ [c_dq; c_col] ++ render d2 ++ sep rest) ++ [c_rb])
                   (opened (before' ++ [(k1, dstr (unescape (latin1 (esc (t1 ++ [c_dq; c_com])))))]) c) ;;
          concludes st).
Proof.
  intros P W D N S. destruct (members_back is64 before P W D) as (ds & C & V & K).
  assert (Nd : NoDup (map fst ds)). { rewrite K. apply NoDup_remove_1 in N. now rewrite app_nil_r in N. }
  destruct (open_members _ _ V [] ANone (Some c_lb) [] ROpen (count_bracket c_lb counts0)) as (c1 & C1 & L1 & T1);
    [exact Nd|discriminate|discriminate|].
  cbn [app] in T1. set (prev := lastp (Some c_lb) (flat_map member_text (map jm before))) in *.
  destruct (hostile_head k1 t1 ds ANone prev [] ROpen c1 ((esc k2 ++ [c_dq; c_col] ++ render d2 ++ sep rest) ++ [c_rb]))
    as (c2 & C2 & T2); auto. { apply body_esc, S. }
  exists ds, c2. split; [now constructor|]. split; auto. split; [eapply cbal_trans; eauto|].
  cbn [render]. change (fun kd : str * doc => quote (fst kd) ++ [c_col] ++ render (snd kd)) with mt.
  rewrite commas_open, swallow.
  rewrite tparse_object.
  2: { intros Q. apply app_eq_nil in Q as [_ Q]. discriminate. }
  unfold opened. rewrite <- app_assoc, (t_loop_ok _ _ _ _ _ T1). fold prev.
  assert (Hk : unescape (latin1 (esc k1)) = k1) by (apply string_back, S).
  assert (Hn : dict_set ds k1 (dstr (unescape (latin1 (esc (t1 ++ [c_dq; c_com]))))) = ds ++ [(k1, dstr (unescape (latin1 (esc (t1 ++ [c_dq; c_com])))))]).
  { apply dict_set_new. rewrite K. apply NoDup_remove_2 in N. now rewrite app_nil_r in N. }
  rewrite Hk, Hn in T2. rewrite <- T2. repeat rewrite <- app_assoc. reflexivity.
Qed.
