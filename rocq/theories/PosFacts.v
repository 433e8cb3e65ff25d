(** * Positions: what Parse stores where *)
From Coq Require Import Ascii String List NArith ZArith Bool Lia.
From Verif Require Import GoStr GoNum GoFloat Heap Common ValueModel ArrayModel MapModel JsonModel ParserModel
  StrLemmas SpecDict DictLemmas SpecNum NumLemmas SpecWorld Inv World Reach SpecFloat FloatFacts SpecDoc RepFacts
  SpecText SpecToken TreeParser ParseWorld ParseRefine ParseTop TextRun TokenFacts SpecParse ParseFacts.
Import ListNotations.

(** ** Dictionaries built by setting *)

Definition sets {V} (ms : dict V) (l : list (str * V)) : dict V :=
  fold_left (fun a kd => dict_set a (fst kd) (snd kd)) l ms.

Lemma sets_get {V} (l : list (str * V)) : forall ms k,
  dict_get (sets ms l) k = match last_of k l with Some v => Some v | None => dict_get ms k end.
Proof.
  induction l as [|[k' v] l IH]; intros ms k; auto. cbn [sets fold_left fst snd last_of].
  fold (sets (dict_set ms k' v) l). rewrite IH, dict_get_set. destruct (last_of k l); auto.
  now destruct (str_eqb k' k).
Qed.

Definition memk (K : list str) (k : str) : bool := existsb (fun k' => str_eqb k' k) K.
Lemma memk_In K k : memk K k = true <-> In k K.
Proof.
  unfold memk. rewrite existsb_exists. split.
  - intros (x & I & E). destruct (str_eqb_spec x k); subst; auto. discriminate.
  - intros I. exists k. split; auto. apply str_eqb_refl.
Qed.

Lemma sets_keys {V} (l : list (str * V)) : forall ms : dict V,
  dict_keys (sets ms l)
  = dict_keys ms ++ filter (fun k => negb (memk (dict_keys ms) k)) (first_keys (map fst l)).
Proof.
  induction l as [|[k v] l IH]; intros ms; [cbn; now rewrite app_nil_r|].
  cbn [sets fold_left fst snd map first_keys]. fold (sets (dict_set ms k v) l). rewrite IH.
  unfold dict_keys. rewrite dict_keys_set. destruct (dict_has ms k) eqn:H.
  - f_equal. cbn [filter]. assert (memk (map fst ms) k = true) as -> by now apply memk_In, dict_has_keys.
    cbn [negb]. generalize (first_keys (map fst l)) as F. intros F. induction F as [|x F IF]; auto.
    cbn [filter]. destruct (str_eqb_spec k x) as [->|N]; cbn [negb filter].
    + assert (memk (map fst ms) x = true) as -> by now apply memk_In, dict_has_keys. cbn [negb]. exact IF.
    + destruct (memk (map fst ms) x); cbn [negb]; [exact IF|f_equal; exact IF].
  - cbn [filter]. assert (memk (map fst ms) k = false) as N.
    { destruct (memk (map fst ms) k) eqn:M; auto. apply memk_In, dict_has_keys in M. congruence. }
    rewrite N. cbn [negb]. rewrite <- app_assoc. f_equal. cbn [app]. f_equal.
    generalize (first_keys (map fst l)) as F. intros F. induction F as [|x F IF]; auto.
    cbn [filter]. unfold memk in *. rewrite existsb_app. cbn [existsb]. rewrite orb_false_r.
    destruct (str_eqb_spec k x) as [->|N']; cbn [negb filter].
    + rewrite orb_true_r. cbn [negb]. exact IF.
    + rewrite orb_false_r. destruct (existsb (fun k' => str_eqb k' x) (map fst ms)); cbn [negb]; [exact IF|f_equal; exact IF].
Qed.

Lemma filter_all {A} (p : A -> bool) l : (forall x, p x = true) -> filter p l = l.
Proof. intros H. induction l; cbn; auto. rewrite H. now f_equal. Qed.
Lemma sets_nil_keys {V} (l : list (str * V)) : dict_keys (sets [] l) = first_keys (map fst l).
Proof. rewrite sets_keys. cbn. now apply filter_all. Qed.

Lemma first_keys_In k ks : In k (first_keys ks) <-> In k ks.
Proof.
  induction ks as [|x ks IH]; cbn; [tauto|]. rewrite filter_In, IH.
  destruct (str_eqb_spec x k); intuition.
Qed.

(** ** Values and positions *)

Section Pos.
  Context (T : str -> tokres).

  (** Only scalars, nothing exactly for empty tokens, and no empty list of errors. *)
  Definition tok_fine (t : str) : Prop :=
    (T t = TokNone <-> squeeze t = [])
    /\ (forall d, T t = TokDoc d -> d = DNull \/ exists s, d = DScal s)
    /\ T t <> TokErr [].

  Lemma value_present v od :
    Forall tok_fine (tokens v) -> value_of T v = (od, []) ->
    if present v then exists d, od = Some d else od = None.
  Proof.
    intros F E. destruct v as [t|b|l|l].
    - inversion F as [|? ? (N & _ & M) _]; subst. rewrite value_of_JTok in E. cbn [present].
      destruct (squeeze t) eqn:Q.
      + rewrite (proj2 N eq_refl) in E. congruence.
      + destruct (T t) as [|d|e].
        * destruct N as [N _]. discriminate (N eq_refl).
        * inversion E. eauto.
        * exfalso. inversion E; subst. congruence.
    - cbn in *. inversion E. eauto.
    - cbn [present]. rewrite value_of_JArr in E. destruct (elems_of T l). inversion E. eauto.
    - cbn [present]. rewrite value_of_JMap in E. destruct (members_of T [] l). inversion E. eauto.
  Qed.

  Lemma elems_pos l : forall ds,
    Forall tok_fine (tokens_elems l) -> elems_of T l = (ds, []) ->
    Forall2 (fun v d => value_of T v = (Some d, [])) (elem_list l) ds.
  Proof.
    induction l as [b|pre v post c r IH]; intros ds F E.
    - cbn in *. inversion E. constructor.
    - rewrite elems_of_ECons in E. cbn [tokens_elems] in F. apply Forall_app in F as [F1 F2].
      destruct (value_of T v) as [od e] eqn:V. destruct (elems_of T r) as [ds' e'] eqn:R.
      inversion E as [[E1 E2]]. apply app_eq_nil in E2 as [-> ->].
      pose proof (value_present v od F1 V) as P. cbn [elem_list]. specialize (IH ds' F2 eq_refl).
      destruct (present v).
      + destruct P as [d ->]. constructor; auto.
      + subst od. exact IH.
  Qed.

  Lemma members_pos l : forall ms es,
    Forall tok_fine (tokens_members l) -> members_of T ms l = (es, []) ->
    exists ml, Forall2 (fun kv kd => fst kv = fst kd /\ value_of T (snd kv) = (Some (snd kd), [])) (member_list l) ml
      /\ es = sets ms ml.
  Proof.
    induction l as [b|pre k mid pre2 v post c r IH]; intros ms es F E.
    - cbn in *. inversion E. exists []. split; [constructor|reflexivity].
    - rewrite members_of_MCons in E. cbn [tokens_members] in F. apply Forall_app in F as [F1 F2].
      destruct (value_of T v) as [od e] eqn:V.
      destruct (members_of T _ r) as [es' e'] eqn:R.
      inversion E as [[E1 E2]]. apply app_eq_nil in E2 as [-> ->]. subst es'.
      destruct (IH _ _ F2 R) as (ml & M1 & M2).
      pose proof (value_present v od F1 V) as P. cbn [member_list].
      destruct (present v).
      + destruct P as [d ->]. exists ((key_of k v, d) :: ml). split; [constructor; auto|]. exact M2.
      + subst od. exists ml. auto.
  Qed.

  Lemma elem_tokens l v : In v (elem_list l) -> incl (tokens v) (tokens_elems l).
  Proof.
    induction l as [b|pre v' post c r IH]; cbn [elem_list tokens_elems]; [intros []|].
    destruct (present v'); cbn [In]; intros I; [destruct I as [->|I]|].
    - apply incl_appl, incl_refl.
    - apply incl_appr; auto.
    - apply incl_appr; auto.
  Qed.
  Lemma member_tokens l k v : In (k, v) (member_list l) -> incl (tokens v) (tokens_members l).
  Proof.
    induction l as [b|pre k' mid pre2 v' post c r IH]; cbn [member_list tokens_members]; [intros []|].
    destruct (present v'); cbn [In]; intros I; [destruct I as [E|I]|].
    - inversion E; subst. apply incl_appl, incl_refl.
    - apply incl_appr; auto.
    - apply incl_appr; auto.
  Qed.

  Lemma last_of_In {V} k (l : list (str * V)) v : last_of k l = Some v -> In (k, v) l.
  Proof.
    induction l as [|[k' v'] l IH]; cbn; [discriminate|]. destruct (last_of k l); auto.
    destruct (str_eqb_spec k' k); [|discriminate]. intros H. inversion H; subst. auto.
  Qed.

  Lemma last_of_rel {V W} (R : V -> W -> Prop) k : forall l l',
    Forall2 (fun a b => fst a = fst b /\ R (snd a) (snd b)) l l' ->
    match last_of k l with
    | Some v => exists w, last_of k l' = Some w /\ R v w
    | None => last_of k l' = None
    end.
  Proof.
    induction 1 as [|[k1 v] [k2 w] l l' [E H] F IH]; cbn in *; auto. subst k2.
    destruct (last_of k l) as [v'|].
    - destruct IH as (w' & -> & Q). eauto.
    - rewrite IH. destruct (str_eqb k1 k); eauto.
  Qed.

  Lemma nth_rel {V W} (R : V -> W -> Prop) : forall l l', Forall2 R l l' -> forall n,
    match nth_error l n with
    | Some v => exists w, nth_error l' n = Some w /\ R v w
    | None => nth_error l' n = None
    end.
  Proof. induction 1 as [|v w l l' H F IH]; intros [|n]; cbn; eauto. apply IH. Qed.

  Lemma fine_incl a b : incl a b -> Forall tok_fine b -> Forall tok_fine a.
  Proof. intros I F. apply Forall_forall. intros x H. rewrite Forall_forall in F. auto. Qed.

  Theorem position : forall p v d,
    Forall tok_fine (tokens v) -> value_of T v = (Some d, []) ->
    match text_at v p with
    | Some v' => exists d', doc_at d p = Some d' /\ value_of T v' = (Some d', []) /\ incl (tokens v') (tokens v)
    | None => doc_at d p = None
    end.
  Proof.
    induction p as [|x p IH]; intros v d F E.
    - cbn. exists d. repeat split; auto. apply incl_refl.
    - assert (TK : forall t, v = JTok t -> d = DNull \/ exists s, d = DScal s).
      { intros t ->. rewrite value_of_JTok in E. inversion F as [|? ? (_ & N & _) _]; subst.
        destruct (T t); inversion E; subst; auto. }
      destruct x as [k|n]; cbn [text_at doc_at].
      + destruct v as [t|b|l|l].
        * destruct (TK t eq_refl) as [->|[s ->]]; auto.
        * cbn in E. inversion E; auto.
        * rewrite value_of_JArr in E. destruct (elems_of T l). inversion E; auto.
        * rewrite value_of_JMap in E. destruct (members_of T [] l) as [es e] eqn:M. inversion E; subst.
          cbn [tokens] in F. destruct (members_pos l [] es F M) as (ml & M1 & ->).
          pose proof (last_of_rel (fun v d => value_of T v = (Some d, [])) k _ _ M1) as L.
          rewrite sets_get. destruct (last_of k (member_list l)) as [v'|] eqn:Lv.
          -- destruct L as (d' & -> & V). apply last_of_In, member_tokens in Lv.
             specialize (IH v' d' (fine_incl _ _ Lv F) V). destruct (text_at v' p); auto.
             destruct IH as (d2 & A & B & C). exists d2. repeat split; auto. eapply incl_tran; eauto.
          -- rewrite L. reflexivity.
      + destruct v as [t|b|l|l].
        * destruct (TK t eq_refl) as [->|[s ->]]; auto.
        * cbn in E. inversion E; auto.
        * rewrite value_of_JArr in E. destruct (elems_of T l) as [ds e] eqn:M. inversion E; subst.
          cbn [tokens] in F. pose proof (nth_rel _ _ _ (elems_pos l ds F M) n) as L.
          destruct (nth_error (elem_list l) n) as [v'|] eqn:Lv.
          -- destruct L as (d' & -> & V). apply nth_error_In, elem_tokens in Lv.
             specialize (IH v' d' (fine_incl _ _ Lv F) V). destruct (text_at v' p); auto.
             destruct IH as (d2 & A & B & C). exists d2. repeat split; auto. eapply incl_tran; eauto.
          -- rewrite L. reflexivity.
        * rewrite value_of_JMap in E. destruct (members_of T [] l). inversion E; auto.
  Qed.
End Pos.

(** ** The model's reading of tokens *)

Lemma T0_scalar t : Forall plain t -> T0 t = tok_of (scalar_of (squeeze t)).
Proof.
  intros P. unfold T0, tok_model. rewrite latin1_utf8, utf8_str_ascii by (eapply Forall_impl; [apply plain_lo|auto]).
  unfold scalar_token. rewrite clean_plain by auto. reflexivity.
Qed.

Lemma number_shape u : match number_token u with
                       | GVal (PScal _) => True
                       | GVal _ => False
                       | GErr e => e <> []
                       end.
Proof.
  unfold number_token. destruct ((match count_byte c_min u with 0 => _ | _ => _ end) ++ _); [|discriminate].
  destruct (Nat.eqb _ 1).
  - destruct (parse_float F64 u); [|discriminate]. destruct (parse_float F32 u); auto.
  - destruct (Nat.eqb _ 1).
    + destruct (parse_int 64 u); [auto|discriminate].
    + destruct (parse_uint 64 u); [auto|discriminate].
Qed.

Lemma scalar_shape u :
  (tok_of (scalar_of u) = TokNone <-> u = [])
  /\ (forall d, tok_of (scalar_of u) = TokDoc d -> d = DNull \/ exists s, d = DScal s)
  /\ tok_of (scalar_of u) <> TokErr [].
Proof.
  assert (K : u = [] \/ keyword u \/ (u <> [] /\ ~ keyword u)).
  { unfold keyword. destruct (str_eqb_spec u []); auto. destruct (str_eqb_spec u (lit "true")); auto.
    destruct (str_eqb_spec u (lit "false")); auto. destruct (str_eqb_spec u (lit "null")); auto.
    right; right. split; auto. tauto. }
  destruct K as [->|[K|[N K]]].
  - cbn. repeat split; auto; discriminate.
  - destruct K as [->|[->| ->]]; cbn; (split; [split; discriminate|split; [intros d E; inversion E; eauto|discriminate]]).
  - rewrite scalar_of_number by auto. pose proof (number_shape u) as S.
    destruct (number_token u) as [[| |s]|e]; try contradiction; cbn.
    + split; [split; [discriminate|contradiction]|]. split; [|discriminate]. intros d E; inversion E; eauto.
    + split; [split; [discriminate|contradiction]|]. split; [discriminate|congruence].
Qed.

Lemma T0_fine t : Forall plain t -> tok_fine T0 t.
Proof. intros P. unfold tok_fine. rewrite T0_scalar by auto. apply scalar_shape. Qed.

Lemma plain_fine l : plain_tokens l -> Forall (tok_fine T0) (tokens_members l).
Proof. intros P. eapply Forall_impl; [apply T0_fine|exact P]. Qed.

(** ** What a successful Parse stores at a position *)

Definition stored (d : doc) (v : jtext) (d' : doc) : Prop := value_of T0 v = (Some d', []).

Lemma parse_position X h l d p :
  reachable X h -> members_ok false l -> plain_tokens l -> parses X h (text_of (JMap l)) (GVal d) ->
  match text_at (JMap l) p with
  | Some v => exists d', doc_at d p = Some d' /\ value_of T0 v = (Some d', [])
      /\ Forall (Forall plain) (tokens v)
  | None => doc_at d p = None
  end.
Proof.
  intros R OK PL P. pose proof (parses_fun _ _ _ _ _ P (parse_any X h l R OK)) as E.
  unfold outcome in E. destruct (members_of T0 [] l) as [ms e] eqn:M. destruct e; [|discriminate]. inversion E; subst.
  pose proof (position T0 p (JMap l) (DMap ms) (plain_fine l PL)) as Q. rewrite value_of_JMap, M in Q.
  specialize (Q eq_refl). destruct (text_at (JMap l) p); auto.
  destruct Q as (d' & A & B & C). exists d'. repeat split; auto.
  apply Forall_forall. intros t I. unfold plain_tokens in PL. rewrite Forall_forall in PL. apply PL. now apply C.
Qed.

Lemma at_token X h l d p t r :
  reachable X h -> members_ok false l -> plain_tokens l -> parses X h (text_of (JMap l)) (GVal d) ->
  text_at (JMap l) p = Some (JTok t) -> lexeme (squeeze t) (TokDoc r) -> doc_at d p = Some r.
Proof.
  intros R OK PL P E L. pose proof (parse_position X h l d p R OK PL P) as Q. rewrite E in Q.
  destruct Q as (d' & A & B & C). rewrite A. f_equal. rewrite value_of_JTok in B.
  cbn [tokens] in C. inversion C; subst. rewrite T0_scalar in B by auto. rewrite (lexeme_scalar _ _ L) in B.
  congruence.
Qed.

Lemma at_string X h l d p b :
  reachable X h -> members_ok false l -> plain_tokens l -> parses X h (text_of (JMap l)) (GVal d) ->
  text_at (JMap l) p = Some (JStr b) -> doc_at d p = Some (DScal (SStr (unescape (latin1 b)))).
Proof.
  intros R OK PL P E. pose proof (parse_position X h l d p R OK PL P) as Q. rewrite E in Q.
  destruct Q as (d' & A & B & C). rewrite A. cbn in B. congruence.
Qed.

Lemma at_array X h l d p l' :
  reachable X h -> members_ok false l -> plain_tokens l -> parses X h (text_of (JMap l)) (GVal d) ->
  text_at (JMap l) p = Some (JArr l') ->
  exists ds, doc_at d p = Some (DArr ds) /\ length ds = length (elem_list l').
Proof.
  intros R OK PL P E. pose proof (parse_position X h l d p R OK PL P) as Q. rewrite E in Q.
  destruct Q as (d' & A & B & C). rewrite value_of_JArr in B. destruct (elems_of T0 l') as [ds e] eqn:M.
  inversion B; subst. exists ds. split; auto. cbn [tokens] in C.
  assert (F : Forall (tok_fine T0) (tokens_elems l')) by (eapply Forall_impl; [apply T0_fine|auto]).
  pose proof (elems_pos T0 l' ds F M) as G. clear -G. induction G; cbn; auto.
Qed.

Lemma at_map X h l d p l' :
  reachable X h -> members_ok false l -> plain_tokens l -> parses X h (text_of (JMap l)) (GVal d) ->
  text_at (JMap l) p = Some (JMap l') ->
  exists es, doc_at d p = Some (DMap es) /\ dict_keys es = first_keys (map fst (member_list l')).
Proof.
  intros R OK PL P E. pose proof (parse_position X h l d p R OK PL P) as Q. rewrite E in Q.
  destruct Q as (d' & A & B & C). rewrite value_of_JMap in B. destruct (members_of T0 [] l') as [ds e] eqn:M.
  inversion B; subst. exists ds. split; auto. cbn [tokens] in C.
  assert (F : Forall (tok_fine T0) (tokens_members l')) by (eapply Forall_impl; [apply T0_fine|auto]).
  destruct (members_pos T0 l' [] ds F M) as (ml & G & ->). rewrite sets_nil_keys. f_equal. clear -G.
  induction G as [|? ? ? ? [E _] _ IH]; cbn; auto. now rewrite E, IH.
Qed.

Lemma at_none X h l d p :
  reachable X h -> members_ok false l -> plain_tokens l -> parses X h (text_of (JMap l)) (GVal d) ->
  (doc_at d p = None <-> text_at (JMap l) p = None).
Proof.
  intros R OK PL P. pose proof (parse_position X h l d p R OK PL P) as Q. destruct (text_at (JMap l) p).
  - destruct Q as (d' & A & _). rewrite A. split; discriminate.
  - tauto.
Qed.

(** Some token is malformed. *)
Lemma some_error X h l t e :
  reachable X h -> members_ok false l -> In t (tokens_members l) -> token_means t (TokErr e) -> e <> [] ->
  exists es, parses X h (text_of (JMap l)) (GErr es) /\ incl e es.
Proof.
  intros R OK I M N. pose proof (parse_any X h l R OK) as P. pose proof (outcome_errs T0 l) as O.
  assert (J : incl e (scalar_errs T0 l)).
  { intros x X0. unfold scalar_errs. apply in_flat_map. exists t. split; auto. now rewrite (means_T0 t _ M). }
  destruct (outcome T0 l) as [d|es].
  - rewrite O in J. destruct e; [congruence|]. exfalso. apply (J e). now left.
  - destruct O as [-> _]. exists (scalar_errs T0 l). auto.
Qed.

(** ** Keys (C15) *)
Lemma raw_member l k v : In (k, v) (raw_members l) -> present v = true -> In (key_of k v, v) (member_list l).
Proof.
  induction l as [b|pre k' mid pre2 v' post c r IH]; cbn [raw_members member_list]; [intros []|].
  intros [E|I] P.
  - inversion E; subst. rewrite P. now left.
  - destruct (present v'); [right|]; auto.
Qed.

Lemma at_key X h l d p l' k v :
  reachable X h -> members_ok false l -> plain_tokens l -> parses X h (text_of (JMap l)) (GVal d) ->
  text_at (JMap l) p = Some (JMap l') -> In (k, v) (raw_members l') -> present v = true ->
  exists es, doc_at d p = Some (DMap es)
    /\ In (match v with JTok _ | JStr _ => unescape (latin1 k) | _ => latin1 k end) (dict_keys es).
Proof.
  intros R OK PL P E I Pr. destruct (at_map X h l d p l' R OK PL P E) as (es & A & K).
  exists es. split; auto. rewrite K. apply first_keys_In.
  replace (match v with JTok _ | JStr _ => unescape (latin1 k) | _ => latin1 k end) with (key_of k v) by now destruct v.
  change (key_of k v) with (fst (key_of k v, v)). apply in_map. now apply raw_member.
Qed.
