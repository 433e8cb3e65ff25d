(** * What becomes of documents with strings that end in a backslash *)
From Coq Require Import Ascii String List NArith ZArith Bool Arith Lia.
From Verif Require Import GoStr GoNum GoFloat Heap Common ValueModel ArrayModel MapModel JsonModel ParserModel
  StrLemmas SpecDict DictLemmas SpecNum NumLemmas SpecWorld Inv World Reach SpecFloat FloatFacts SpecDoc RepFacts
  SpecText SpecToken TreeParser ParseWorld ParseRefine ParseTop TokenFacts SpecParse ParseFacts PosFacts TypedFacts
  TextDec ParseMore TidyFacts SpecRender RenderFacts ShowFacts SpecRound RoundFacts SerialFacts SpecHostile HostileFacts
  TextRun HostileRun.
Import ListNotations.

Lemma harmless_nodq s : harmless s -> ~ In c_dq s.
Proof. intros H I. unfold harmless in H. rewrite Forall_forall in H. destruct (H _ I) as [Q _]. apply Q. left. reflexivity. Qed.
Lemma harmless_keys s : harmless s -> Forall (fun x => ~ structural x) s.
Proof. apply Forall_impl. tauto. Qed.
Lemma harmless_column s : harmless s -> Forall (fun x => ~ structural x /\ x <> c_col) s.
Proof. apply Forall_impl. tauto. Qed.
Lemma harmless_last p s : p <> Some c_bs -> harmless s -> lastp p s <> Some c_bs.
Proof. intros P H. apply lastp_nbs; auto. eapply Forall_impl; [|exact H]. cbn. tauto. Qed.

Lemma body_nodq b : ~ In c_dq b -> (forall u, b <> u ++ [c_bs]) -> body_ok b.
Proof. intros N L. split; auto. intros u v ->. exfalso. apply N, in_or_app. right. left. reflexivity. Qed.

(** ** A panic *)
Lemma lone_value es a k stk : body_ok k ->
  t_value (TextRun.quoted (latin1 k)) [c_dq] ((FMap es, a) :: stk) = Panic.
Proof.
  intros B. unfold t_value.
  destruct (value_key (FMap es) k (TextRun.quoted (latin1 k)) [c_dq] ltac:(split; auto)) as (k' & E & _). rewrite E. reflexivity.
Qed.

Lemma column_panic k es a stk r c rest prev : body_ok k -> prev <> Some c_bs ->
  t_loop prev (c_dq :: c_col :: c_dq :: rest) (TSt MColumn false (TextRun.quoted (latin1 k)) [] ((FMap es, a) :: stk) r c [])
  = Panic.
Proof.
  intros B P. cbn [t_loop].
  assert (E : t_step prev c_dq (TSt MColumn false (TextRun.quoted (latin1 k)) [] ((FMap es, a) :: stk) r c [])
    = Ok (TSt MColumn true (TextRun.quoted (latin1 k)) [] ((FMap es, a) :: stk) r (count_open c) [])).
  { unfold t_step. cbn [t_ps negb]. rewrite ascii_eqb_refl. cbn [andb].
    replace (match prev with Some p => negb (Ascii.eqb p c_bs) | None => true end) with true; [reflexivity|].
    symmetry. destruct prev as [p|]; auto. rewrite eqb_ne; auto. congruence. }
  rewrite E. cbn [rbind].
  assert (E2 : t_step (Some c_dq) c_col (TSt MColumn true (TextRun.quoted (latin1 k)) [] ((FMap es, a) :: stk) r (count_open c) [])
    = Ok (TSt MNext true (TextRun.quoted (latin1 k)) [] ((FMap es, a) :: stk) r (count_open c) [])) by reflexivity.
  rewrite E2. cbn [rbind].
  assert (E3 : t_step (Some c_col) c_dq (TSt MNext true (TextRun.quoted (latin1 k)) [] ((FMap es, a) :: stk) r (count_open c) []) = Panic).
  { unfold t_step. cbn [t_ps negb]. change (Ascii.eqb c_dq c_dq && negb (Ascii.eqb c_col c_bs)) with true. cbn [t_mode t_set_ps].
    unfold t_end, t_add_val, t_set_ps. cbn [t_tk t_tv t_stk t_root t_mode t_cnt t_errs t_ps app].
    change (utf8_of_byte c_dq) with [c_dq]. rewrite lone_value by auto. reflexivity. }
  rewrite E3. reflexivity.
Qed.

Lemma harmless_json is64 d : proper is64 d -> harmless_value d ->
  (exists t, d = dstr t /\ harmless t)
  \/ (~ In c_dq (render d) /\ Forall (fun c => c <> c_bs) (render d) /\ render d <> []).
Proof.
  intros P H. destruct d as [|s| | | |]; try destruct H.
  - right. split; [cbn; intuition discriminate|]. split; [repeat constructor; discriminate|discriminate].
  - inversion P; subst. destruct s as [t|b|k z|k f]; [left; exists t; split; [reflexivity|exact H]| | |]; right; cbn [render].
    all: match goal with |- context [scalar_json ?s] => destruct (RoundFacts.scalar_token is64 s ltac:(assumption) H ltac:(discriminate)) as [A B] end.
    all: assert (G : Forall (fun c => c <> c_dq /\ c <> c_bs) _) by (exact (scalar_plain is64 _ ltac:(eassumption) ltac:(discriminate))).
    all: split; [intros I; rewrite Forall_forall in G; now apply G in I|]; split; auto.
    all: eapply Forall_impl; [|exact G]; cbn; tauto.
Qed.

Lemma string_text t rest : render (dstr t) ++ rest = c_dq :: esc t ++ c_dq :: rest.
Proof. unfold dstr. cbn [render scalar_json]. rewrite <- quote_quoted, quote_esc. cbn [app]. now rewrite <- app_assoc. Qed.

Lemma quote_text t rest : quote t ++ rest = c_dq :: esc t ++ c_dq :: rest.
Proof. rewrite quote_esc. cbn [app]. now rewrite <- app_assoc. Qed.

Lemma panic_run is64 k2 d2 k3 t3 rest es c :
  harmless k2 -> proper is64 d2 -> harmless_value d2 -> harmless k3 ->
  t_loop (Some c_dq) ((esc k2 ++ [c_dq; c_col] ++ render d2 ++ sep ((k3, dstr t3) :: rest)) ++ [c_rb]) (opened es c) = Panic.
Proof.
  intros H2 P V H3. rewrite (esc_nodq k2) by now apply harmless_nodq. rewrite <- app_assoc. unfold opened.
  rewrite (t_loop_ok k2 _ _ _ _ (keys_gap k2 _ _ _ _ _ _ _ (harmless_keys k2 H2))).
  pose proof (harmless_last (Some c_dq) k2 ltac:(discriminate) H2) as L2.
  rewrite sep_cons. unfold mt. cbn [fst snd]. rewrite <- !app_assoc. rewrite quote_text, (esc_nodq k3) by now apply harmless_nodq.
  rewrite string_text. cbn [app].
  set (more := esc t3 ++ c_dq :: sep rest ++ [c_rb]).
  assert (Fin : forall k c' prev, body_ok k -> prev <> Some c_bs ->
    t_loop prev (k3 ++ c_dq :: c_col :: c_dq :: more) (TSt MColumn false (TextRun.quoted (latin1 k)) [] [(FMap es, ANone)] ROpen c' []) = Panic).
  { intros k c' prev B Q. rewrite (t_loop_ok k3 _ _ _ _ (column_gap k3 _ _ _ _ _ _ _ (harmless_column k3 H3))).
    apply column_panic; auto. now apply harmless_last. }
  destruct (harmless_json is64 d2 P V) as [(t2 & -> & Ht)|(A & B & N)].
  - rewrite string_text. rewrite (esc_nodq t2) by now apply harmless_nodq.
    assert (Bc : body_ok [c_col]). { apply body_nodq; [cbn; intuition discriminate|]. intros u Q. destruct u as [|? [|]]; discriminate. }
    change (c_dq :: c_col :: c_dq :: t2 ++ c_dq :: c_com :: c_dq :: k3 ++ c_dq :: c_col :: c_dq :: more)
      with (TextRun.quoted [c_col] ++ (t2 ++ c_dq :: c_com :: c_dq :: k3 ++ c_dq :: c_col :: c_dq :: more)).
    rewrite (t_loop_ok _ _ _ _ _ (key_run [c_col] _ _ _ _ _ L2 Bc)).
    rewrite (t_loop_ok t2 _ _ _ _ (column_gap t2 _ _ _ _ _ _ _ (harmless_column t2 Ht))).
    assert (Lq : lastp (lastp (lastp (Some c_dq) k2) (TextRun.quoted [c_col])) t2 <> Some c_bs).
    { apply harmless_last; auto. unfold TextRun.quoted. cbn. discriminate. }
    cbn [t_loop].
    match goal with |- context [t_step ?pv c_dq (TSt MColumn false ?tk [] ?st ?r ?cc [])] =>
      assert (E : t_step pv c_dq (TSt MColumn false tk [] st r cc []) = Ok (TSt MColumn true tk [] st r (count_open cc) [])) end.
    { unfold t_step. cbn [t_ps negb]. rewrite ascii_eqb_refl. cbn [andb].
      match goal with |- context [match ?p with Some _ => _ | None => true end] => replace (match p with Some q => negb (Ascii.eqb q c_bs) | None => true end) with true; [reflexivity|];
        symmetry; destruct p as [q|]; auto; rewrite eqb_ne; auto; congruence end. }
    rewrite E. cbn [rbind].
    match goal with |- context [t_step (Some c_dq) c_com ?s] => change (t_step (Some c_dq) c_com s) with (Ok s) end. cbn [rbind].
    match goal with |- context [t_step (Some c_com) c_dq (TSt MColumn true ?tk [] ?st ?r ?cc [])] =>
      change (t_step (Some c_com) c_dq (TSt MColumn true tk [] st r cc [])) with (Ok (TSt MColumn false tk [] st r (count_close cc) [])) end.
    cbn [rbind]. apply Fin; auto. discriminate.
  - assert (Bk : body_ok (c_col :: render d2 ++ [c_com])).
    { apply body_nodq.
      - intros [I|I]; [discriminate|]. apply in_app_or in I as [I|[I|[]]]; [auto|discriminate].
      - intros u Q. rewrite app_comm_cons in Q. apply app_inj_tail in Q as [_ Q]. discriminate. }
    replace (c_dq :: c_col :: render d2 ++ c_com :: c_dq :: k3 ++ c_dq :: c_col :: c_dq :: more)
      with (TextRun.quoted (c_col :: render d2 ++ [c_com]) ++ (k3 ++ c_dq :: c_col :: c_dq :: more)).
    2: { unfold TextRun.quoted. cbn [app]. repeat (rewrite <- app_assoc; cbn [app]). reflexivity. }
    rewrite (t_loop_ok _ _ _ _ _ (key_run _ _ _ _ _ _ L2 Bk)). apply Fin; auto.
    unfold TextRun.quoted. rewrite app_comm_cons, lastp_snoc. discriminate.
Qed.

Lemma written X h F m d b : reachable X h -> escape_ok X -> rep_obj (x_typed_nil X) (view h) F (IMap m) d ->
  (exists n, forall fuel, n <= fuel -> map_ToJSONString fuel X h m (Some b) = Ok (Some (b ++ render d), [])) /\ distinct d.
Proof.
  intros R E Rep. pose proof (view_impl h (reachable_Inv _ _ R)) as I.
  destruct (map_json_rep X h (view h) F E I m d Rep) as (n & J). split.
  - exists n. intros f L. cbn [map_ToJSONString]. rewrite (J f L). reflexivity.
  - exact (proj1 (rep_distinct _ h _ F I) _ _ Rep).
Qed.

Lemma writable_part a l : writable (DMap (a ++ l)) -> writable (DMap a).
Proof. intros W. inversion W as [| | | | | |? W']; subst. apply Forall_app in W'. constructor. tauto. Qed.

Lemma nodup_head {A} (l : list A) x y : NoDup (l ++ x :: y) -> NoDup (l ++ [x]).
Proof. intros N. change (x :: y) with ([x] ++ y) in N. rewrite app_assoc in N. revert N. generalize (l ++ [x]).
  intros q N. induction q as [|z q IH]; [constructor|]. inversion N; subst. constructor; auto. intros I. apply H1, in_or_app. auto. Qed.

Lemma slash_panic X h F m b before k1 t1 k2 d2 k3 t3 rest h' : reachable X h -> escape_ok X ->
  rep_obj (x_typed_nil X) (view h) F (IMap m) (DMap (before ++ (k1, dstr (t1 ++ [c_bs])) :: (k2, d2) :: (k3, dstr t3) :: rest)) ->
  proper (x_is64 X) (DMap before) -> writable (DMap before) -> safe k1 ->
  harmless k2 -> proper (x_is64 X) d2 -> harmless_value d2 -> harmless k3 -> reachable X h' ->
  exists n s, (forall fuel, n <= fuel -> map_ToJSONString fuel X h m (Some b) = Ok (Some (b ++ s), []))
    /\ Parse X s h' = Panic.
Proof.
  intros R E Rep P W S H2 P2 V H3 R'. destruct (written X h F m _ b R E Rep) as [(n & J) D]. exists n. eexists. split; [exact J|].
  apply parse_panic; auto. inversion P as [| | | | |? P']; subst. inversion D as [| | | | |? Nd D']; subst.
  rewrite map_app in Nd. apply Forall_app in D' as [D' _].
  destruct (hostile_start (x_is64 X) before k1 t1 k2 d2 ((k3, dstr t3) :: rest)) as (b' & c & _ & _ & _ & ->); auto.
  { now apply nodup_head in Nd. }
  rewrite (panic_run (x_is64 X)); auto.
Qed.

(** ** Members that are lost *)
Lemma col_body : body_ok [c_col].
Proof. apply body_nodq; [cbn; intuition discriminate|]. intros u Q. destruct u as [|? [|]]; discriminate. Qed.

Lemma esc_slash t : ~ In c_dq t -> esc (t ++ [c_bs]) = t ++ [c_bs].
Proof. intros N. apply esc_nodq. intros I. apply in_app_or in I as [I|[I|[]]]; [auto|discriminate]. Qed.

Lemma lost_run k2 t2 es c : harmless k2 -> harmless t2 ->
  t_loop (Some c_dq) ((esc k2 ++ [c_dq; c_col] ++ render (dstr (t2 ++ [c_bs])) ++ sep []) ++ [c_rb]) (opened es c)
  = Ok (TSt MColumn false (TextRun.quoted (latin1 [c_col])) [] [(FMap es, ANone)] ROpen
          (count_bracket c_rb (count_close (count_open c))) []).
Proof.
  intros H2 Ht. rewrite (esc_nodq k2) by now apply harmless_nodq. rewrite <- app_assoc. unfold opened.
  rewrite (t_loop_ok k2 _ _ _ _ (keys_gap k2 _ _ _ _ _ _ _ (harmless_keys k2 H2))).
  pose proof (harmless_last (Some c_dq) k2 ltac:(discriminate) H2) as L2.
  rewrite <- !app_assoc, string_text, (esc_slash t2) by now apply harmless_nodq. cbn [app sep]. rewrite <- app_assoc. cbn [app].
  change (c_dq :: c_col :: c_dq :: t2 ++ [c_bs; c_dq; c_rb]) with (TextRun.quoted [c_col] ++ (t2 ++ [c_bs; c_dq; c_rb])).
  rewrite (t_loop_ok _ _ _ _ _ (key_run [c_col] _ _ _ _ _ L2 col_body)).
  rewrite (t_loop_ok t2 _ _ _ _ (column_gap t2 _ _ _ _ _ _ _ (harmless_column t2 Ht))).
  reflexivity.
Qed.

Lemma slash_lost X h F m b before k1 t1 k2 t2 h' : reachable X h -> escape_ok X ->
  rep_obj (x_typed_nil X) (view h) F (IMap m) (DMap (before ++ [(k1, dstr (t1 ++ [c_bs])); (k2, dstr (t2 ++ [c_bs]))])) ->
  proper (x_is64 X) (DMap before) -> writable (DMap before) -> safe k1 -> is_ascii t1 ->
  harmless k2 -> harmless t2 -> reachable X h' ->
  exists n s before', (forall fuel, n <= fuel -> map_ToJSONString fuel X h m (Some b) = Ok (Some (b ++ s), []))
    /\ comes_back (DMap before) (DMap before')
    /\ parses X h' s (GVal (DMap (before' ++ [(k1, dstr (t1 ++ [c_dq; c_com]))]))).
Proof.
  intros R E Rep P W S A1 H2 H3 R'. destruct (written X h F m _ b R E Rep) as [(n & J) D]. exists n.
  inversion P as [| | | | |? P']; subst. inversion D as [| | | | |? Nd D']; subst.
  rewrite map_app in Nd. apply Forall_app in D' as [D' _].
  destruct (hostile_start (x_is64 X) before k1 t1 k2 (dstr (t2 ++ [c_bs])) []) as (b' & c & C & _ & Cb & T); auto.
  { now apply nodup_head in Nd. }
  eexists _, b'. split; [exact J|]. split; auto. apply parses_tree; auto. rewrite T, lost_run by auto.
  rewrite string_back. 2: { apply Forall_app. split; auto. repeat constructor. }
  cbn [rbind]. unfold concludes. cbn [t_errs t_cnt t_stk t_root]. rewrite balanced; [reflexivity|].
  unfold cbal, count_bracket, count_close, count_open in *. cbn in *. lia.
Qed.

(** ** Members that are forged *)
Lemma gap_comma : gap false [c_com].
Proof. constructor; [|constructor]. split; [|discriminate]. intros [Q|[Q|[Q|[Q|Q]]]]; discriminate Q. Qed.

Definition lead (l : list (str * jtext)) : jmembers :=
  match members_of_list l with
  | MNil b => MNil b
  | MCons pre k mid pre2 v post comma rest => MCons (c_com :: pre) k mid pre2 v post comma rest
  end.

Lemma lead_text l : text_members (lead (map jm l)) = sep l.
Proof.
  destruct l as [|[k d] l]; [reflexivity|]. unfold lead. cbn [map jm members_of_list fst snd]. 
  change (text_members (MCons [c_com] (esc k) [] [] (jt d) [] (match map jm l with [] => false | _ => true end) (members_of_list (map jm l))))
    with (c_com :: text_members (members_of_list (map jm ((k, d) :: l)))).
  rewrite text_members_list, map_map. unfold sep. cbn [app]. f_equal. f_equal. apply map_ext. intros x.
  unfold mt, jm. cbn [fst snd]. rewrite text_jt, quote_esc. cbn [app]. repeat (rewrite <- app_assoc; cbn [app]). reflexivity.
Qed.

Lemma lead_ok l : members_ok true (members_of_list l) -> members_ok false (lead l).
Proof.
  intros M. apply strict_lenient in M. unfold lead. destruct (members_of_list l) as [b|pre k mid pre2 v post comma rest]; auto.
  cbn [members_ok] in *. destruct M as (A & M). split; auto. exact (proj2 (Forall_app _ [c_com] pre) (conj gap_comma A)).
Qed.

Lemma lead_value l es : members_of T0 es (lead l) = members_of T0 es (members_of_list l).
Proof. unfold lead. destruct (members_of_list l); reflexivity. Qed.

Lemma token_T v r : token_ok true v -> lexeme v r -> T0 v = r /\ token_ok false v /\ ~ In c_dq v.
Proof.
  intros TK L. pose proof TK as (St & _ & F). split; [|split].
  - apply means_T0. split; [|now rewrite ParseMore.squeeze_token]. eapply Forall_impl; [|exact F]. intros c [H _]. now right.
  - exact (proj1 strict_lenient_all (JTok v) TK).
  - intros I. rewrite Forall_forall in St. destruct (St _ I) as [Q _]. apply Q. left. reflexivity.
Qed.

Lemma forged_run is64 k2 v dv rest rest' es c : harmless k2 -> token_ok true v -> lexeme v (TokDoc dv) ->
  proper is64 (DMap rest) -> writable (DMap rest) -> Forall2 good (map jm rest) rest' ->
  NoDup (map fst ((es ++ [([c_col], dv)]) ++ rest')) -> exists md c',
  t_loop (Some c_dq) ((esc k2 ++ [c_dq; c_col] ++ render (dstr (c_col :: v ++ [c_com; c_bs])) ++ sep rest) ++ [c_rb]) (opened es c)
  = Ok (TSt md false [] [] [] (RDone (DMap ((es ++ [([c_col], dv)]) ++ rest'))) c' [])
  /\ cbal (count_bracket c_rb c) c'.
Proof.
  intros H2 TK L P W G N. destruct (token_T v _ TK L) as (TV & OK & ND).
  rewrite (esc_nodq k2) by now apply harmless_nodq. rewrite <- app_assoc. unfold opened.
  set (c1 := count_close (count_open c)).
  rewrite <- !app_assoc, string_text.
  assert (esc (c_col :: v ++ [c_com; c_bs]) = c_col :: v ++ [c_com; c_bs]) as ->.
  { apply esc_nodq. intros [I|I]; [discriminate|]. apply in_app_or in I as [I|[I|[I|[]]]]; [auto|discriminate|discriminate]. }
  replace (k2 ++ [c_dq; c_col] ++ c_dq :: (c_col :: v ++ [c_com; c_bs]) ++ c_dq :: sep rest ++ [c_rb])
    with ((k2 ++ TextRun.quoted [c_col] ++ [] ++ [c_col]) ++ v ++ c_com :: c_bs :: c_dq :: (sep rest ++ [c_rb])).
  2: { unfold TextRun.quoted. cbn [app]. repeat (rewrite <- app_assoc; cbn [app]). reflexivity. }
  rewrite (t_loop_ok _ _ _ _ _ (member_head k2 [c_col] [] (Some c_dq) [(FMap es, ANone)] ROpen c []
    ltac:(eapply Forall_impl; [|exact H2]; cbn; tauto) col_body ltac:(constructor) ltac:(discriminate))).
  fold c1. destruct (token_run v [] [] (lastp (Some c_dq) (k2 ++ TextRun.quoted [c_col] ++ [] ++ [c_col])) (TextRun.quoted (latin1 [c_col]))
      [(FMap es, ANone)] ROpen c1 [] ltac:(constructor) OK ltac:(constructor)) as (md & tv & M & HTV & Lp).
  cbn [app] in Lp. rewrite app_nil_r in Lp.
  destruct (token_value T0 v [] tv (T0_agrees v) OK ltac:(constructor) HTV) as [TM NQ].
  cbn [app] in *. rewrite (t_loop_ok _ _ _ _ _ Lp). cbn [t_loop].
  rewrite (token_end T0 (FMap es) ANone [c_col] _ tv v _ [] ROpen c1 [] md c_com false); auto.
  2: { split; auto. apply col_body. }
  rewrite value_of_JTok, TV. cbn [fst snd rbind put_doc app t_next is_fmap]. change (count_bracket c_com c1) with c1.
  change (unescape (latin1 [c_col])) with [c_col]. rewrite dict_set_new.
  2: { rewrite <- app_assoc in N. rewrite map_app in N. cbn [map app] in N. apply NoDup_remove_2 in N. intros I. apply N, in_or_app. auto. }
  match goal with |- context [t_step ?p c_bs ?s] => change (t_step p c_bs s) with (Ok s) end. cbn [rbind].
  match goal with |- context [t_step ?p c_dq ?s] => change (t_step p c_dq s) with (Ok s) end. cbn [rbind].
  rewrite <- lead_text.
  assert (MV : members_of T0 (es ++ [([c_col], dv)]) (lead (map jm rest)) = ((es ++ [([c_col], dv)]) ++ rest', [])).
  { rewrite lead_value. apply members_list_value; auto. clear - G. induction G as [|x y l l' (_ & _ & A & B) _ IH]; constructor; auto. }
  assert (MO : members_ok false (lead (map jm rest))).
  { apply lead_ok. pose proof (jt_ok is64 (DMap rest) P W) as Q. exact Q. }
  destruct (proj2 (proj2 (run_all T0)) (lead (map jm rest)) (es ++ [([c_col], dv)]) ANone (Some c_dq) [] ROpen c1 [] MO (agrees _)
    ltac:(discriminate) ltac:(discriminate) _ _ MV) as (md' & c' & Lr & Cb).
  eexists _, c'. split. { etransitivity; [exact Lr|]. cbn [t_pop rbind fst snd app close_root close]. rewrite <- app_assoc. reflexivity. }
  eapply cbal_trans; [|exact Cb]. unfold cbal, count_bracket, c1, count_close, count_open. cbn. lia.
Qed.

Lemma slash_forged X h F m b before k1 t1 k2 v dv rest h' : reachable X h -> escape_ok X ->
  rep_obj (x_typed_nil X) (view h) F (IMap m)
    (DMap (before ++ (k1, dstr (t1 ++ [c_bs])) :: (k2, dstr ([c_col] ++ v ++ [c_com; c_bs])) :: rest)) ->
  proper (x_is64 X) (DMap (before ++ rest)) -> writable (DMap (before ++ rest)) -> safe k1 -> is_ascii t1 ->
  harmless k2 -> token_ok true v -> lexeme v (TokDoc dv) ->
  ~ In [c_col] (k1 :: map fst (before ++ rest)) -> reachable X h' ->
  exists n s before' rest', (forall fuel, n <= fuel -> map_ToJSONString fuel X h m (Some b) = Ok (Some (b ++ s), []))
    /\ comes_back (DMap before) (DMap before') /\ comes_back (DMap rest) (DMap rest')
    /\ parses X h' s (GVal (DMap (before' ++ (k1, dstr (t1 ++ [c_dq; c_com])) :: ([c_col], dv) :: rest'))).
Proof.
  intros R E Rep P W S A1 H2 TK L NC R'. destruct (written X h F m _ b R E Rep) as [(n & J) D]. exists n.
  inversion P as [| | | | |? P']; subst. apply Forall_app in P' as [P1 P2].
  inversion W as [| | | | | |? W']; subst. apply Forall_app in W' as [W1 W2].
  inversion D as [| | | | |? Nd D']; subst. rewrite map_app in Nd. apply Forall_app in D' as [D1 D2].
  inversion D2 as [|? ? _ D3]; inversion D3 as [|? ? _ D4]; subst.
  destruct (hostile_start (x_is64 X) before k1 t1 k2 (dstr ([c_col] ++ v ++ [c_com; c_bs])) rest) as (b' & c & C & K1 & Cb & T); auto.
  { now constructor. } { now apply nodup_head in Nd. }
  destruct (members_back (x_is64 X) rest) as (r' & C2 & G & K2); auto. { now constructor. }
  rewrite string_back in T. 2: { apply Forall_app. split; auto. repeat constructor. }
  destruct (forged_run (x_is64 X) k2 v dv rest r' (b' ++ [(k1, dstr (t1 ++ [c_dq; c_com]))]) c) as (md & c' & Lp & Cb2); auto.
  { now constructor. } { now constructor. }
  { rewrite !map_app. cbn [map fst].
    match goal with |- NoDup (((?x ++ _) ++ _) ++ ?y) =>
      replace x with (map fst before) by (symmetry; exact K1); replace y with (map fst rest) by (symmetry; exact K2) end.
    rewrite <- !app_assoc. cbn [app].
    cbn [map fst] in Nd. clear - Nd NC. rewrite map_app in NC.
    assert (N1 : NoDup (map fst before ++ k1 :: map fst rest)).
    { change (k1 :: k2 :: map fst rest) with ([k1] ++ k2 :: map fst rest) in Nd. rewrite app_assoc in Nd.
      apply NoDup_remove_1 in Nd. now rewrite <- app_assoc in Nd. }
    change (k1 :: [c_col] :: map fst rest) with ([k1] ++ [c_col] :: map fst rest). rewrite app_assoc.
    apply (NoDup_Add (a := [c_col]) (l := (map fst before ++ [k1]) ++ map fst rest)). { apply Add_app. }
    split. { now rewrite <- app_assoc. }
    intros I. apply NC. cbn in *. repeat (apply in_app_or in I as [I|I]); [right; apply in_or_app; auto| |right; apply in_or_app; auto].
    destruct I as [->|[]]. auto. }
  eexists _, b', r'. split; [exact J|]. split; auto. split; [now constructor|]. apply parses_tree; auto. rewrite T.
  cbn [app] in *. rewrite Lp. cbn [rbind]. unfold concludes. cbn [t_errs t_cnt t_stk t_root]. rewrite balanced.
  - cbn. repeat rewrite <- app_assoc. reflexivity.
  - eapply cbal_trans; [|exact Cb2]. unfold cbal, count_bracket in *. cbn in *. lia.
Qed.
