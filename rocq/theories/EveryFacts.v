(** * What Parse makes of every text: the tree machine and the reports of the reader *)
From Coq Require Import Ascii String List NArith ZArith Bool Lia.
From Verif Require Import GoStr GoNum GoFloat Heap Common ValueModel ArrayModel MapModel JsonModel ParserModel
  StrLemmas SpecDict SpecNum NumLemmas SpecFloat FloatFacts SpecDoc SpecText SpecToken SpecParse SpecPanic SpecWorld Inv World Reach
  TreeParser TextRun TokenFacts ParseTop ParseFacts TidyFacts ParseMore PanicFacts OriginFacts SpecScalar ScalarFacts ScalarRun ScalarTop SpecEvery.
Import ListNotations.
Local Arguments space_byte : simpl never.

(** ** Values *)

Lemma quoted_inv s : is_quoted s = true -> slice_inner s <> None -> exists b, s = c_dq :: b ++ [c_dq].
Proof.
  intros Q N. destruct (slice_inner s) as [b|] eqn:E; [|congruence]. exists b. now apply slice_quoted_eq in E.
Qed.

Lemma value_token v r : value_means v r ->
  match (if contains_byte c_dq (clean (utf8_str v)) then
            if is_quoted (clean (utf8_str v)) then
              match slice_inner (clean (utf8_str v)) with Some v' => Ok (true, v', []) | None => Panic end
            else Ok (false, clean (utf8_str v), [EValQuote])
          else Ok (false, clean (utf8_str v), [])) with
  | Ok ve => match snd ve with
             | (_ :: _) as e => r = TokErr e
             | [] => if fst (fst ve) then r = TokDoc (DScal (SStr (snd (fst ve))))
                     else r = tok_of (scalar_token (snd (fst ve)))
             end
  | Panic => True
  | _ => False
  end.
Proof.
  intros H. rewrite <- latin1_utf8, clean_latin1.
  destruct H as [v u b Tr E|v u Tr I N|v u r Tr N R]; apply trimmed_strip in Tr; rewrite Tr.
  - rewrite E. change (c_dq :: b ++ [c_dq]) with (quoted b). rewrite contains_quoted, is_quoted_quoted, slice_quoted. reflexivity.
  - apply contains_byte_In in I. rewrite I. destruct (is_quoted (unescape (latin1 u))) eqn:Q; [|reflexivity].
    destruct (slice_inner (unescape (latin1 u))) as [b|] eqn:S; [|exact Logic.I].
    apply slice_quoted_eq in S; auto. now apply N in S.
  - destruct (contains_byte c_dq (unescape (latin1 u))) eqn:C; [apply contains_byte_In in C; tauto|].
    cbn [snd fst]. unfold scalar_token. rewrite strip_squeeze. fold (scalar_of (squeeze (unescape (latin1 u)))).
    symmetry. now apply reads_iff.
Qed.

Theorem value_total v : exists r, value_means v r.
Proof.
  assert (Tr : trimmed v (strip v)) by now apply trimmed_strip.
  destruct (in_dec ascii_dec c_dq (unescape (latin1 (strip v)))) as [I|N].
  - destruct (is_quoted (unescape (latin1 (strip v)))) eqn:Q.
    + destruct (slice_inner (unescape (latin1 (strip v)))) as [b|] eqn:S.
      * exists (TokDoc (DScal (SStr b))). eapply vm_string; [exact Tr|]. now apply slice_quoted_eq in S.
      * exists (TokErr [EValQuote]). eapply vm_quote; [exact Tr|exact I|]. intros b E. apply slice_inner_none in S; auto.
        rewrite S in E. destruct b; discriminate.
    + exists (TokErr [EValQuote]). eapply vm_quote; [exact Tr|exact I|]. intros b E. rewrite E in Q.
      change (c_dq :: b ++ [c_dq]) with (quoted b) in Q. rewrite is_quoted_quoted in Q. discriminate.
  - destruct (reads_total (squeeze (unescape (latin1 (strip v))))) as (r & R). exists r. eapply vm_scalar; eauto.
Qed.

Theorem value_fun v r r' : value_means v r -> value_means v r' -> r = r'.
Proof.
  intros H H'. destruct H as [v u b Tr E|v u Tr I N|v u r Tr N R]; destruct H' as [v' u' b' Tr' E'|v' u' Tr' I' N'|v' u' r' Tr' N' R'];
    apply trimmed_strip in Tr, Tr'; subst; auto.
  - rewrite E in E'. inversion E' as [Q]. apply app_inj_tail in Q as [-> _]. reflexivity.
  - now apply N' in E.
  - exfalso. apply N'. rewrite E. now left.
  - now apply N in E'.
  - tauto.
  - exfalso. apply N. rewrite E'. now left.
  - tauto.
  - eapply reads_fun; eauto.
Qed.

(** ** The stack and the open containers *)

Definition fr (c : content) : frame := match c with Members l => FMap l | Elements l => FArr l end.

Lemma fr_close c : close (fr c) = finished c.
Proof. destruct c; reflexivity. Qed.
Lemma fr_add k d c : fr (add k d c) = put_doc k (Some d) (fr c).
Proof. destruct c; reflexivity. Qed.

Fixpoint stk_rel (l : list (frame * att)) (o : list (content * str)) : Prop :=
  match l, o with
  | [], [] => True
  | (f, a) :: t, (c, n) :: o' =>
      f = fr c /\ match t with
                  | [] => True
                  | (g, _) :: _ => a = if is_fmap g then AKey n else AElem
                  end /\ stk_rel t o'
  | _, _ => False
  end.

Definition root_rel (r : root) (top : option doc) (l : list (frame * att)) : Prop :=
  match r with
  | RNone => top = None /\ l = []
  | ROpen => top = None
  | RDone d => top = Some d
  end.

Definition key_fit (f : frame) (k tk : str) : Prop :=
  is_fmap f = true -> tk = quoted (latin1 k) /\ forall u, k <> u ++ [c_bs].

Definition key_rel (prev : option ascii) (st : tst) (name k : str) : Prop :=
  match t_mode st with
  | MKeys => t_tk st = []
  | MKeyName => t_tk st = c_dq :: latin1 name
      /\ exists p, prev = Some p /\ match name with [] => p = c_dq | _ => exists u, name = u ++ [p] end
  | _ => match t_stk st with (f, _) :: _ => key_fit f k (t_tk st) | [] => True end
  end.

Record sim (prev : option ascii) (st : tst) (name : str) (w : work) : Prop := {
  si_stk : stk_rel (t_stk st) (w_open w);
  si_root : root_rel (t_root st) (w_top w) (t_stk st);
  si_errs : t_errs st = w_errs w;
  si_key : key_rel prev st name (w_name w) }.

Lemma value_step f a k tk v stk r :
  key_fit f k tk -> value_means v r ->
  match t_value tk (utf8_str v) ((f, a) :: stk) with
  | Ok (l, e) => match r with
      | TokNone => l = (f, a) :: stk /\ e = []
      | TokDoc d => l = (put_doc (unescape (latin1 k)) (Some d) f, a) :: stk /\ e = []
      | TokErr e' => l = (f, a) :: stk /\ e = e'
      end
  | Panic => True
  | _ => False
  end.
Proof.
  intros K H. apply value_token in H. unfold t_value, value_text.
  assert (Kt : exists k', (if is_fmap f then
            if is_quoted (clean tk) then
              match slice_inner (clean tk) with Some k' => Ok (k', []) | None => Panic end
            else Ok (clean tk, [EKeyQuote])
          else Ok (clean tk, [])) = Ok (k', @nil err) /\ (is_fmap f = true -> k' = unescape (latin1 k))).
  { unfold key_fit in K. destruct (is_fmap f); [|exists (clean tk); split; [reflexivity|discriminate]].
    destruct (K eq_refl) as [-> B]. exists (unescape (latin1 k)). split; auto.
    rewrite (clean_quoted (latin1 k)) by now apply latin1_last.
    rewrite is_quoted_quoted, slice_quoted, unescape_unesc. reflexivity. }
  destruct Kt as (k' & -> & Ek). cbn [rbind fst snd app].
  destruct (if contains_byte c_dq (clean (utf8_str v)) then _ else _) as [[[isq t] es]| | |]; cbn [rbind fst snd] in *; auto; try contradiction.
  destruct es as [|e es]; cbn [rbind].
  - destruct isq; cbn [rbind].
    + subst r. cbn [doc_of put_top]. rewrite (put_key f _ _ _ Ek). auto.
    + destruct (scalar_token t) as [p|e] eqn:Sc; cbn [rbind]; subst r; cbn [tok_of].
      * destruct (doc_of p) as [d|] eqn:D; cbn [put_top].
        -- rewrite (put_key f _ _ _ Ek). auto.
        -- auto.
      * auto.
  - subst r. auto.
Qed.

Lemma att_fr n c g : att_put (if is_fmap (fr g) then AKey n else AElem) (finished c) (fr g) = fr (add n (finished c) g).
Proof. destruct g; reflexivity. Qed.

Lemma stk_top f a t c n o : stk_rel ((f, a) :: t) ((c, n) :: o) -> forall c', is_fmap (fr c') = is_fmap (fr c) ->
  stk_rel ((fr c', a) :: t) ((c', n) :: o).
Proof. intros (E & A & R) c' K. repeat split; auto. Qed.

Lemma stk_below f a t c n o : stk_rel t o -> f = fr c ->
  match t with [] => True | (g, _) :: _ => a = if is_fmap g then AKey n else AElem end ->
  stk_rel ((f, a) :: t) ((c, n) :: o).
Proof. intros. cbn. auto. Qed.

(** Removing the top container. *)
Lemma pop_sim l r l' r' o nm top es : stk_rel l o -> root_rel r top l -> t_pop l r = Ok (l', r') ->
  stk_rel l' (w_open (put_event (fun _ => TokNone) (Work o nm top es) Closes))
  /\ root_rel r' (w_top (put_event (fun _ => TokNone) (Work o nm top es) Closes)) l'
  /\ w_errs (put_event (fun _ => TokNone) (Work o nm top es) Closes) = es.
Proof.
  destruct l as [|[f a] [|[g b] t]]; cbn [t_pop]; intros S R E; [discriminate| |].
  - inversion E; subst. destruct o as [|[c n] [|? ?]]; cbn in S; try (destruct S as (? & ? & []); fail); try contradiction.
    cbn. destruct S as (-> & _ & _). split; auto. split; auto. unfold close_root, root_rel in *.
    destruct r; cbn; try (destruct R; discriminate); subst; cbn; auto. now rewrite fr_close.
  - inversion E; subst. destruct o as [|[c n] [|[c' n'] o]]; cbn [stk_rel] in S; try (destruct S as (? & ? & []); fail); try contradiction.
    destruct S as (-> & A & -> & B & S). cbn [put_event w_open w_top w_errs]. rewrite fr_close. rewrite A, att_fr.
    split; [|split; auto].
    + cbn [stk_rel]. auto.
    + destruct r'; cbn in *; auto. destruct R. discriminate.
Qed.

Lemma closes_any V V' w : put_event V w Closes = put_event V' w Closes.
Proof. reflexivity. Qed.

Definition valueish (m : pmode) : Prop := m = MValue \/ m = MNext.

Lemma next_key prev name k mode st : t_mode st = t_next mode (t_stk st) -> t_tk st = [] ->
  valueish mode \/ mode = MKeys -> key_rel prev st name k.
Proof.
  intros M K H. unfold key_rel. rewrite M. unfold t_next. destruct (t_stk st) as [|[f a] t].
  - destruct H as [[->| ->]| ->]; auto.
  - destruct (is_fmap f) eqn:F; auto. unfold key_fit. now rewrite F.
Qed.

Lemma key_value prev st name k : key_rel prev st name k -> valueish (t_mode st) ->
  match t_stk st with (f, _) :: _ => key_fit f k (t_tk st) | [] => True end.
Proof. unfold key_rel. intros K [M|M]; now rewrite M in K. Qed.

Lemma add_kind k d c : is_fmap (fr (add k d c)) = is_fmap (fr c).
Proof. destruct c; reflexivity. Qed.

Lemma end_sim V pop prev st name w v st' : sim prev st name w -> valueish (t_mode st) -> t_tv st = utf8_str v ->
  value_means v (V v) -> t_end pop st = Ok st' ->
  forall prev' name', sim prev' st' name' (fold_left (put_event V) (Holds v :: if pop then [Closes] else []) w).
Proof.
  intros [S R E K] M Tv Vm H prev' name'. apply key_value in K; auto. unfold t_end in H. rewrite Tv in H.
  destruct (t_stk st) as [|[f a] t] eqn:St.
  - cbn [t_value rbind fst snd] in H. destruct pop; [discriminate|]. cbn [rbind fst snd] in H. inversion H; subst st'.
    destruct w as [o nm top es]. destruct o; [|contradiction]. cbn [fold_left put_event w_open w_top w_errs] in *.
    split; cbn [t_stk t_root t_errs t_mode t_tk w_open w_top w_errs]; auto.
    + now rewrite E.
    + apply (next_key _ _ _ (t_mode st)); auto.
  - destruct w as [[|[c n] o] nm top es]; [contradiction|]. cbn [w_open w_top w_errs w_name] in *.
    pose proof (value_step f a nm (t_tk st) v t (V v) K Vm) as T.
    destruct (t_value (t_tk st) (utf8_str v) ((f, a) :: t)) as [[l es']| | |]; try discriminate.
    cbn [rbind fst snd] in H.
    (* the container after the value *)
    assert (G : exists c', fold_left (put_event V) [Holds v] (Work ((c, n) :: o) nm top es)
                = Work ((c', n) :: o) [] top (es ++ es') /\ l = (fr c', a) :: t /\ is_fmap (fr c') = is_fmap (fr c)).
    { destruct S as (-> & _). cbn [fold_left put_event w_open w_top w_errs w_name]. destruct (V v) as [|d|e].
      - destruct T as [-> ->]. exists c. rewrite app_nil_r. auto.
      - destruct T as [-> ->]. exists (add (unescape (latin1 nm)) d c). rewrite app_nil_r, add_kind, fr_add. auto.
      - destruct T as [-> ->]. exists c. auto. }
    destruct G as (c' & G & -> & Kc). pose proof (stk_top _ _ _ _ _ _ S c' Kc) as S'.
    assert (R' : root_rel (t_root st) top ((fr c', a) :: t)).
    { unfold root_rel in *. destruct (t_root st); auto. destruct R. discriminate. }
    change (Holds v :: (if pop then [Closes] else [])) with ([Holds v] ++ (if pop then [Closes] else [])).
    rewrite fold_left_app, G. destruct pop; cbn [rbind fst snd] in H.
    + destruct (t_pop ((fr c', a) :: t) (t_root st)) as [[l2 r2]| | |] eqn:P; try discriminate.
      cbn [rbind fst snd] in H. inversion H; subst st'.
      destruct (pop_sim _ _ _ _ _ [] top (es ++ es') S' R' P) as (S2 & R2 & E2). cbn [fold_left].
      rewrite (closes_any V (fun _ => TokNone)). split; cbn [t_stk t_root t_errs]; auto.
      * rewrite E2, E. reflexivity.
      * apply (next_key _ _ _ (t_mode st)); auto.
    + inversion H; subst st'. cbn [fold_left]. split; cbn [t_stk t_root t_errs w_open w_top w_errs]; auto.
      * now rewrite E.
      * apply (next_key _ _ _ (t_mode st)); auto.
Qed.

Lemma attach_sim prev st name k : key_rel prev st name k -> t_mode st = MValue ->
  t_attach (t_tk st) (t_stk st)
  = Ok (match t_stk st with [] => ANone | (g, _) :: _ => if is_fmap g then AKey (latin1 k) else AElem end, []).
Proof.
  intros K M. apply key_value in K; [|now left]. unfold t_attach. destruct (t_stk st) as [|[f a] t]; auto.
  unfold key_fit in K. destruct (is_fmap f); auto. destruct (K eq_refl) as [-> _]. unfold unquote_key.
  now rewrite is_quoted_quoted, slice_quoted.
Qed.

Lemma latin1_snoc s b : latin1 (s ++ [b]) = latin1 s ++ utf8_of_byte b.
Proof. rewrite latin1_app. cbn. now rewrite app_nil_r. Qed.

Lemma not_quote_bracket b : b = c_dq -> Ascii.eqb b c_lb = false /\ Ascii.eqb b c_rb = false /\ Ascii.eqb b c_ls = false
  /\ Ascii.eqb b c_rs = false /\ Ascii.eqb b c_com = false.
Proof. intros ->. repeat split. Qed.

Lemma mode_sim V q b prev st r name w st' :
  follows st r -> sim prev st name w -> (q = true -> b = c_dq /\ prev <> Some c_bs) ->
  (q = true -> t_ps st = false -> ~ valueish (t_mode st)) ->
  (forall v, In (Holds v) (report q (t_ps st) b r name) -> value_means v (V v)) ->
  t_step_mode q b st = Ok st' ->
  sim (Some b) st' (name_after q b r name) (fold_left (put_event V) (report q (t_ps st) b r name) w).
Proof.
  intros F Sm Q A Vm H. pose proof F as [P _ Tv _ _]. pose proof Sm as [S R E K].
  unfold t_step_mode in H. unfold report, name_after in *. rewrite P in *.
  destruct (t_mode st) eqn:M; cbn [mode_place] in *.
  - (* keys *)
    unfold key_rel in K. rewrite M in K. destruct (Ascii.eqb b c_rb).
    + unfold t_close_keys in H. destruct (t_pop (t_stk st) (t_root st)) as [[l2 r2]| | |] eqn:Pp; try discriminate.
      cbn [rbind fst snd] in H. inversion H; subst st'. cbn [fold_left]. rewrite (closes_any V (fun _ => TokNone)).
      destruct w as [o nm top es]. cbn [w_open w_top w_errs w_name] in *.
      destruct (pop_sim _ _ _ _ _ nm top es S R Pp) as (S2 & R2 & E2).
      split; cbn [t_stk t_root t_errs]; auto; [now rewrite E2, E|].
      apply (next_key _ _ _ (t_mode st)); auto.
    + cbn [fold_left]. destruct q; inversion H; subst st'; clear H.
      * split; cbn; auto. unfold key_rel. cbn. destruct (Q eq_refl) as [-> _]. rewrite K. split; [reflexivity|]. exists c_dq. auto.
      * split; auto. unfold key_rel. now rewrite M.
  - (* name *)
    unfold key_rel in K. rewrite M in K. destruct K as [K (p & -> & Kp)]. destruct q; inversion H; subst st'; clear H.
    + destruct (Q eq_refl) as [-> Nb]. cbn [fold_left put_event]. split; cbn [t_stk t_root t_errs w_open w_top w_errs t_add_key t_set_mode]; auto.
      unfold key_rel. cbn [t_mode t_add_key t_set_mode t_stk t_tk w_name]. destruct (t_stk st) as [|[f a] t]; auto.
      intros _. rewrite K. split; [reflexivity|]. intros u Eu. destruct name as [|x name]; [destruct u; discriminate|].
      destruct Kp as (u' & Ku). rewrite Ku in Eu. apply app_inj_tail in Eu as [_ ->]. now apply Nb.
    + cbn [fold_left]. split; cbn [t_stk t_root t_errs t_add_key]; auto.
      unfold key_rel. cbn [t_mode t_add_key t_tk]. rewrite M, K. split.
      * rewrite latin1_snoc. reflexivity.
      * exists b. split; auto. destruct (name ++ [b]) as [|x l] eqn:Eq; [destruct name; discriminate|]. exists name. now rewrite Eq.
  - (* colon *)
    unfold key_rel in K. rewrite M in K. inversion H; subst st'. cbn [fold_left].
    destruct (Ascii.eqb b c_col); split; auto; unfold key_rel; cbn [t_mode t_set_mode]; rewrite ?M; exact K.
  - (* value *)
    cbn [andb] in H.
    assert (QQ : q && negb (t_ps st) = false).
    { destruct q; auto. destruct (t_ps st); auto. exfalso. apply A; auto. now left. }
    rewrite QQ in *. cbn [t_ps t_set_mode] in H.
    assert (K' : key_rel prev (t_set_mode MValue st) name (w_name w)).
    { unfold key_rel in *. cbn [t_mode t_set_mode]. now rewrite M in K. }
    assert (Any : forall pv nm x, sim pv (t_add_val x (t_set_mode MValue st)) nm w).
    { intros. split; auto. }
    destruct (t_ps st) eqn:Ps; cbn [negb] in H.
    { inversion H; subst st'. apply Any. }
    assert (Sv : sim prev (t_set_mode MValue st) name w) by (split; auto).
    destruct (Ascii.eqb b c_lb).
    { unfold t_open_map in H. rewrite (attach_sim _ _ _ _ K' eq_refl) in H. cbn [rbind fst snd] in H. inversion H; subst st'.
      cbn [fold_left put_event empty_of t_stk t_set_mode t_root t_errs t_cnt t_ps] in *. split; cbn [t_stk t_root t_errs w_open w_top w_errs].
      - apply stk_below; auto. destruct (t_stk st) as [|[g b'] t]; auto.
      - unfold root_rel in *. destruct (t_root st); tauto.
      - now rewrite app_nil_r.
      - reflexivity. }
    destruct (Ascii.eqb b c_rb) eqn:Erb.
    { assert (Ascii.eqb b c_ls = false) as Els by (apply Ascii.eqb_eq in Erb; subst; reflexivity). rewrite Els in *. cbn [orb] in *.
      eapply (end_sim V true prev (t_set_mode MValue st)); eauto; [now left|apply Vm; now left]. }
    destruct (Ascii.eqb b c_ls).
    { unfold t_open_array in H. cbn [t_stk t_set_mode] in H. destruct (t_stk st) as [|[g b'] t] eqn:St; [discriminate|].
      rewrite <- St in H. change (t_stk st) with (t_stk (t_set_mode MValue st)) in H.
      rewrite (attach_sim _ _ _ _ K' eq_refl) in H. cbn [rbind fst snd] in H. inversion H; subst st'.
      cbn [fold_left put_event empty_of t_stk t_set_mode t_root t_errs t_cnt t_ps] in *. split; cbn [t_stk t_root t_errs w_open w_top w_errs].
      - rewrite St. apply stk_below; auto.
      - unfold root_rel in *. destruct (t_root st); auto. destruct R. discriminate.
      - now rewrite app_nil_r.
      - unfold key_rel. cbn [t_mode t_stk]. unfold key_fit. discriminate. }
    cbn [orb] in *. destruct (Ascii.eqb b c_rs).
    { eapply (end_sim V true prev (t_set_mode MValue st)); eauto; [now left|apply Vm; now left]. }
    destruct (Ascii.eqb b c_com).
    { eapply (end_sim V false prev (t_set_mode MValue st)); eauto; [now left|apply Vm; now left]. }
    inversion H; subst st'. apply Any.
  - (* before a value *)
    assert (QQ : q && negb (t_ps st) = false).
    { destruct q; auto. destruct (t_ps st); auto. exfalso. apply A; auto. now right. }
    rewrite QQ in *. cbn [andb] in H.
    destruct (Ascii.eqb b c_sp || Ascii.eqb b c_nl || Ascii.eqb b c_cr || Ascii.eqb b c_bs || Ascii.eqb b c_tab) eqn:Bl.
    { inversion H; subst st'. assert (Nb : Ascii.eqb b c_lb = false /\ Ascii.eqb b c_rb = false /\ Ascii.eqb b c_ls = false
        /\ Ascii.eqb b c_rs = false /\ Ascii.eqb b c_com = false).
      { repeat (apply orb_true_iff in Bl as [Bl|Bl]; [|apply Ascii.eqb_eq in Bl; subst; repeat split]).
        apply Ascii.eqb_eq in Bl; subst; repeat split. }
      destruct Nb as (-> & -> & -> & -> & ->). cbn [orb].
      assert (sim (Some b) st name w) by (split; auto; unfold key_rel in *; rewrite M in *; exact K).
      destruct (t_ps st); auto. }
    cbn [t_ps t_set_mode] in H.
    assert (K' : key_rel prev (t_set_mode MValue st) name (w_name w)).
    { unfold key_rel in *. cbn [t_mode t_set_mode]. now rewrite M in K. }
    assert (Any : forall pv nm x, sim pv (t_add_val x (t_set_mode MValue st)) nm w).
    { intros. split; auto. }
    destruct (t_ps st) eqn:Ps; cbn [negb] in H.
    { inversion H; subst st'. apply Any. }
    assert (Sv : sim prev (t_set_mode MValue st) name w) by (split; auto).
    destruct (Ascii.eqb b c_lb).
    { unfold t_open_map in H. rewrite (attach_sim _ _ _ _ K' eq_refl) in H. cbn [rbind fst snd] in H. inversion H; subst st'.
      cbn [fold_left put_event empty_of t_stk t_set_mode t_root t_errs t_cnt t_ps] in *. split; cbn [t_stk t_root t_errs w_open w_top w_errs].
      - apply stk_below; auto. destruct (t_stk st) as [|[g b'] t]; auto.
      - unfold root_rel in *. destruct (t_root st); tauto.
      - now rewrite app_nil_r.
      - reflexivity. }
    destruct (Ascii.eqb b c_rb) eqn:Erb.
    { assert (Ascii.eqb b c_ls = false) as Els by (apply Ascii.eqb_eq in Erb; subst; reflexivity). rewrite Els in *. cbn [orb] in *.
      eapply (end_sim V true prev (t_set_mode MValue st)); eauto; [now left|apply Vm; now left]. }
    destruct (Ascii.eqb b c_ls).
    { unfold t_open_array in H. cbn [t_stk t_set_mode] in H. destruct (t_stk st) as [|[g b'] t] eqn:St; [discriminate|].
      rewrite <- St in H. change (t_stk st) with (t_stk (t_set_mode MValue st)) in H.
      rewrite (attach_sim _ _ _ _ K' eq_refl) in H. cbn [rbind fst snd] in H. inversion H; subst st'.
      cbn [fold_left put_event empty_of t_stk t_set_mode t_root t_errs t_cnt t_ps] in *. split; cbn [t_stk t_root t_errs w_open w_top w_errs].
      - rewrite St. apply stk_below; auto.
      - unfold root_rel in *. destruct (t_root st); auto. destruct R. discriminate.
      - now rewrite app_nil_r.
      - unfold key_rel. cbn [t_mode t_stk]. unfold key_fit. discriminate. }
    cbn [orb] in *. destruct (Ascii.eqb b c_rs).
    { eapply (end_sim V true prev (t_set_mode MValue st)); eauto; [now left|apply Vm; now left]. }
    destruct (Ascii.eqb b c_com).
    { eapply (end_sim V false prev (t_set_mode MValue st)); eauto; [now left|apply Vm; now left]. }
    inversion H; subst st'. apply Any.
Qed.

Lemma step_sim V prev b st r name w st' : follows st r -> sim prev st name w -> t_step prev b st = Ok st' ->
  let q := Ascii.eqb b c_dq && match prev with Some p => negb (Ascii.eqb p c_bs) | None => true end in
  let quoted := if q then negb (r_quoted r) else r_quoted r in
  (forall v, In (Holds v) (report q quoted b r name) -> value_means v (V v)) ->
  sim (Some b) st' (name_after q b r name) (fold_left (put_event V) (report q quoted b r name) w).
Proof.
  intros F Sm H q quoted Vm. unfold t_step in H. fold q in H.
  assert (Q : q = true -> b = c_dq /\ prev <> Some c_bs).
  { unfold q. rewrite andb_true_iff, Ascii.eqb_eq. intros [-> P]. split; auto. intros ->. discriminate. }
  unfold quoted in *. clear quoted. clearbody q. pose proof F as [P U Tv O K]. rewrite U in *.
  assert (S : forall ps c, follows (t_set_ps ps c st) (Reading (r_place r) ps (r_value r) (r_open r)))
    by (intros ps c; split; cbn; auto).
  assert (SS : forall ps c, sim prev (t_set_ps ps c st) name w).
  { intros. destruct Sm as [A B C D]. split; auto. }
  destruct (t_ps st) eqn:Ps; cbn [negb] in *.
  - destruct q.
    + assert (D : (valueish (t_mode st) /\ t_end false (t_add_val (utf8_of_byte b) (t_set_ps false (count_close (t_cnt st)) st)) = Ok st')
          \/ (~ valueish (t_mode st) /\ t_step_mode true b (t_set_ps false (count_close (t_cnt st)) st) = Ok st')).
      { cbn [t_mode t_set_ps] in H. unfold valueish. destruct (t_mode st); auto; right; split; auto; intros [?|?]; discriminate. }
      clear H. destruct D as [[M H]|[M H]].
      * assert (Er : report true false b r name = [Holds (r_value r ++ [b])]).
        { unfold report. rewrite P. destruct M as [M|M]; rewrite M; reflexivity. }
        rewrite Er in *. apply (end_sim V false prev (t_add_val (utf8_of_byte b) (t_set_ps false (count_close (t_cnt st)) st)) name w
          (r_value r ++ [b]) st'); auto.
        -- destruct (SS false (count_close (t_cnt st))) as [A B C D]. split; auto.
        -- cbn [t_tv t_add_val t_set_ps]. rewrite Tv. apply utf8_add.
        -- apply Vm. now left.
      * apply (mode_sim V true b prev _ _ name w st' (S false (count_close (t_cnt st))) (SS _ _)); auto.
    + pose proof (mode_sim V false b prev st r name w st' F Sm Q) as G. rewrite Ps in G. apply G; auto. discriminate.
  - destruct q.
    + apply (mode_sim V true b prev _ _ name w st' (S true (count_open (t_cnt st))) (SS _ _)); auto. cbn. discriminate.
    + apply (mode_sim V false b prev _ _ name w st' (S false (count_bracket b (t_cnt st))) (SS _ _)); auto. discriminate.
Qed.

Lemma loop_sim V s : forall prev st r name w st', follows st r -> sim prev st name w -> t_loop prev s st = Ok st' ->
  (forall v, In (Holds v) (events_from prev s r name) -> value_means v (V v)) ->
  exists name', sim (lastp prev s) st' name' (fold_left (put_event V) (events_from prev s r name) w).
Proof.
  induction s as [|b s IH]; intros prev st r name w st' F Sm H Vm; cbn [t_loop events_from lastp] in *.
  - inversion H; subst. exists name. exact Sm.
  - pose proof (agrees_step prev b st r F) as A. cbn zeta in A.
    destruct (t_step prev b st) as [st1| | |] eqn:E; try discriminate. cbn [rbind] in H.
    destruct (read_byte _ _ b r) as [r'|] eqn:Rb; [|contradiction].
    rewrite fold_left_app. apply (IH _ st1 r'); auto.
    + apply (step_sim V prev b st r name w st1); auto. intros v Hv. apply Vm, in_app_iff. now left.
    + intros v Hv. apply Vm, in_app_iff. now right.
Qed.

Lemma sim_start : sim None tst0 [] nothing.
Proof. split; cbn; auto. Qed.

(** ** The end of the text *)

Lemma close_all_sim V : forall t o' up f a c n nm top es r,
  up f = fr c -> stk_rel ((fr c, a) :: t) ((c, n) :: o') -> root_rel r top ((f, a) :: t) ->
  let w := fold_left (put_event V) (repeat Closes (S (length o'))) (Work ((c, n) :: o') nm top es) in
  root_doc (close_all up ((f, a) :: t) r) = w_top w /\ w_errs w = es.
Proof.
  induction t as [|[g b] t IH]; intros o' up f a c n nm top es r Up S R w.
  - destruct o' as [|[c' n'] o']; cbn [stk_rel] in S; [|destruct S as (_ & _ & [])].
    unfold w. cbn. unfold close_root, root_rel in *. rewrite Up.
    destruct r; cbn; try (destruct R; discriminate); subst; cbn; auto. now rewrite fr_close.
  - destruct o' as [|[c' n'] o']; cbn [stk_rel] in S; [destruct S as (_ & _ & [])|]. destruct S as (_ & A & -> & B & S).
    unfold w. cbn [length repeat fold_left]. change (put_event V (Work ((c, n) :: (c', n') :: o') nm top es) Closes)
      with (Work ((add n (finished c) c', n') :: o') [] top es).
    change (close_all up ((f, a) :: (fr c', b) :: t) r) with (close_all (att_put a (close (up f))) ((fr c', b) :: t) r).
    apply (IH o' (att_put a (close (up f))) (fr c') b (add n (finished c) c') n' [] top es r).
    + rewrite Up, fr_close, A. apply att_fr.
    + cbn [stk_rel]. auto.
    + unfold root_rel in *. destruct r; auto. destruct R. discriminate.
Qed.

Lemma collapse_sim V prev st name w : sim prev st name w ->
  let w' := fold_left (put_event V) (repeat Closes (length (w_open w))) w in
  root_doc (collapse (t_stk st) (t_root st)) = w_top w' /\ w_errs w' = t_errs st.
Proof.
  intros [S R E _]. destruct w as [o nm top es]. cbn [w_open w_top w_errs] in *. rewrite E. unfold collapse.
  destruct (t_stk st) as [|[f a] t]; destruct o as [|[c n] o]; try contradiction.
  - cbn. unfold root_rel in R. destruct (t_root st); cbn; intuition.
  - destruct S as (-> & A & S). apply close_all_sim; auto. cbn [stk_rel]. auto.
Qed.

Lemma balance_post s st : t_loop None s tst0 = Ok st -> post_errs (t_cnt st) = balance_errs s.
Proof.
  intros H. apply loop_counts in H. cbn [t_ps tst0 t_cnt] in H. unfold balance_errs, post_errs.
  destruct (outside None false s) as [o q]. cbn [fst snd] in H. unfold cadd in H.
  cbn [n_lb n_rb n_ls n_rs n_oq n_cq counts0] in H. destruct H as (A & B & C & D & E).
  rewrite !Nat.add_0_l in *. rewrite A, B, C, D. f_equal. f_equal.
  destruct q; [|replace (Nat.eqb _ _) with true by (symmetry; apply Nat.eqb_eq; lia); reflexivity].
  replace (Nat.eqb _ _) with false by (symmetry; apply Nat.eqb_neq; lia). reflexivity.
Qed.

Lemma verdict_tparse V s : panics_on s = false -> (forall v, In (Holds v) (events s) -> value_means v (V v)) ->
  tparse s = Ok (match verdict V s with GVal d => GVal (Some d) | GErr [] => GVal None | GErr e => GErr e end).
Proof.
  intros P Vm. pose proof (tparse_total s) as T. unfold tparse, verdict in *. unfold wrap_errs. fold (pre_errs s).
  destruct (pre_errs s) as [|e es]; [|reflexivity].
  destruct (str_eqb s (lit "{}")) eqn:S0.
  { apply str_eqb_eq in S0. subst. reflexivity. }
  destruct (t_loop None s tst0) as [st| | |] eqn:L; cbn [rbind] in T; try contradiction; [|congruence].
  cbn [rbind]. destruct (loop_sim V s None tst0 start [] nothing st follows_start sim_start L Vm) as (nm & Sm).
  fold (events s) in Sm. destruct (collapse_sim V _ _ _ _ Sm) as [R E]. unfold put_events. cbv zeta in R, E |- *.
  rewrite E, <- R. rewrite (balance_post s st L). destruct (t_errs st); [|reflexivity].
  destruct (balance_errs s); [|reflexivity]. destruct (root_doc _); reflexivity.
Qed.
