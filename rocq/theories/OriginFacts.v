(** * Where the result of Parse comes from, and how large it is *)
From Coq Require Import Ascii String List NArith ZArith Bool Lia.
From Verif Require Import GoStr GoNum GoFloat Heap Common ValueModel ArrayModel MapModel JsonModel ParserModel
  StrLemmas SpecDict DictLemmas SpecNum NumLemmas SpecWorld Inv World Reach SpecFloat FloatFacts SpecDoc RepFacts
  SpecText SpecToken TreeParser ParseWorld ParseRefine ParseTop TextRun TokenFacts SpecParse ParseFacts PosFacts TypedFacts
  ParseMore PanicFacts TidyFacts SpecRead SpecOrigin.
Import ListNotations.

(** ** Pieces of a text *)
Definition ends_with (p t : str) : Prop := exists a, p = a ++ t.

Lemma ends_in p t : ends_with p t -> in_text p t.
Proof. intros [a ->]. exists a, []. now rewrite app_nil_r. Qed.
Lemma ends_nil p : ends_with p [].
Proof. exists p. now rewrite app_nil_r. Qed.
Lemma in_nil p : in_text p [].
Proof. apply ends_in, ends_nil. Qed.
Lemma in_text_app p t x : in_text p t -> in_text (p ++ x) t.
Proof. intros (a & b & ->). exists a, (b ++ x). now rewrite <- !app_assoc. Qed.
Lemma in_text_trans s t u : in_text s t -> in_text t u -> in_text s u.
Proof. intros (a & b & ->) (c & d & ->). exists (a ++ c), (d ++ b). now rewrite <- !app_assoc. Qed.
Lemma ends_snoc p t b : ends_with p t -> ends_with (p ++ [b]) (t ++ [b]).
Proof. intros [a ->]. exists a. now rewrite app_assoc. Qed.

Lemma strip_in p : in_text p (strip p).
Proof.
  destruct (strip_head p) as (a & E & _). unfold strip.
  destruct (strip_head (rev (drop_blanks p))) as (c & E2 & _).
  apply (f_equal (@rev ascii)) in E2. rewrite rev_involutive, rev_app_distr in E2.
  exists a, (rev c). rewrite E at 1. now rewrite E2 at 1.
Qed.

Lemma quoted_in_app p u x : quoted_in p u -> quoted_in (p ++ x) u.
Proof. intros (t & I & Q). exists t. split; auto. now apply in_text_app. Qed.

Lemma comes_from_app p x : forall d, comes_from p d -> comes_from (p ++ x) d.
Proof.
  fix IH 2. intros d [t d' I W|u Q|l F|l F].
  - apply cf_word with t; auto. now apply in_text_app.
  - apply cf_str. now apply quoted_in_app.
  - apply cf_arr. induction F; constructor; auto.
  - apply cf_map. induction F as [|kd l [Q C] F IF]; constructor; auto. split; auto. now apply quoted_in_app.
Qed.

(** ** Words *)
Lemma number_reads u s : number_token u = GVal (PScal s) -> u <> [] -> ~ keyword u -> word_reads u (DScal s).
Proof.
  intros E Ne K. pose proof E as E0. rewrite number_token_eq in E by auto.
  destruct (number_errs u) eqn:NE; [|discriminate].
  destruct (Nat.eqb_spec (occurrences c_dot u) 1).
  - assert (FN : forall f, parse_float F64 u = Some f -> Forall number_byte u).
    { intros f Ef. destruct (parse_float_fin F64 u f) as (neg & n & d & Sy & _); auto.
      { apply occ_In. lia. }
      rewrite syn_dot in Sy by (apply occ_In; lia). destruct u as [|c t]; [discriminate|].
      destruct (Ascii.eqb_spec c c_plus) as [->|].
      { constructor; [apply nb_lit; cbn; tauto|]. now apply read_number_bytes in Sy. }
      destruct (Ascii.eqb_spec c c_min) as [->|].
      { constructor; [apply nb_lit; cbn; tauto|]. now apply read_number_bytes in Sy. }
      now apply read_number_bytes in Sy. }
    assert (L : forall r, lexeme u r -> r = TokDoc (DScal s)).
    { intros r Lx. apply lexeme_scalar in Lx. rewrite scalar_of_number in Lx by auto. now rewrite E0 in Lx. }
    destruct (parse_float F64 u) as [f|] eqn:E64; [|discriminate]. specialize (FN _ eq_refl).
    destruct (parse_float F32 u) as [g|] eqn:E32; inversion E; subst; now constructor.
  - destruct (Nat.eqb_spec (occurrences c_min u) 1).
    + destruct (parse_int 64 u) as [z|] eqn:P; [|discriminate]. apply parse_int_iff in P as [Sn Bz]; [|lia].
      destruct (narrow_signed_narrowest z) as (k & Ek & Nk); [lia|]. inversion E; subst. rewrite Ek. constructor.
      destruct Sn as [H|[(t & -> & H)|(t & -> & H)]].
      * now left.
      * exfalso. assert (occurrences c_min t = 0) by (destruct H as (_ & F & _); apply occ_digits; auto; exact min_nd).
        change ("+"%char :: t) with (["+"%char] ++ t) in *. rewrite occ_app in *.
        change (occurrences c_min ["+"%char]) with 0 in *. lia.
      * right. eauto.
    + destruct (parse_uint 64 u) as [z|] eqn:P; [|discriminate]. apply parse_uint_iff in P as [Sn Bz].
      destruct (narrow_unsigned_narrowest z) as (k & Ek & Nk).
      { pose proof (digits_nonneg _ _ Sn). lia. }
      inversion E; subst. rewrite Ek. constructor. now left.
Qed.

Lemma scalar_reads v p d : scalar_token v = GVal p -> doc_of p = Some d -> word_reads (squeeze v) d.
Proof.
  unfold scalar_token. rewrite strip_squeeze.
  destruct (str_eqb_spec (squeeze v) (lit "true")) as [->|N1].
  { intros E D; inversion E; subst. inversion D; subst. apply (wr_bool true). }
  destruct (str_eqb_spec (squeeze v) (lit "false")) as [->|N2].
  { intros E D; inversion E; subst. inversion D; subst. apply (wr_bool false). }
  destruct (str_eqb_spec (squeeze v) (lit "null")) as [->|N3].
  { intros E D; inversion E; subst. inversion D; subst. constructor. }
  destruct (str_eqb_spec (squeeze v) []) as [->|N4]; [intros E D; inversion E; subst; discriminate|].
  intros E D. pose proof (number_shape (squeeze v)) as S. rewrite E in S.
  destruct p as [| |s]; try contradiction. inversion D; subst. apply number_reads; auto. unfold keyword. tauto.
Qed.

(** A word is ASCII. *)
Lemma number_byte_lo c : number_byte c -> (N_of_ascii c < 128)%N.
Proof.
  unfold number_byte. intros H. assert (A : Forall (fun c => (N_of_ascii c < 128)%N) (lit "0123456789.+-_abcdefABCDEFxXpP")).
  { repeat constructor. }
  rewrite Forall_forall in A. now apply A.
Qed.
Lemma digits_lo u : Forall is_digit u -> Forall (fun c => (N_of_ascii c < 128)%N) u.
Proof. intros F. eapply Forall_impl; [|exact F]. intros c H. now apply number_byte_lo, digit_number. Qed.
Lemma word_lo u d : word_reads u d -> Forall (fun c => (N_of_ascii c < 128)%N) u.
Proof.
  intros [|[]|u' k z [(_ & F & _)|(t & -> & (_ & F & _))]|u' k f F _ _].
  - repeat constructor.
  - repeat constructor.
  - repeat constructor.
  - now apply digits_lo.
  - constructor; [reflexivity|]. now apply digits_lo.
  - eapply Forall_impl; [|exact F]. exact number_byte_lo.
Qed.

Lemma hi_ignored c : (128 <= N_of_ascii c)%N -> ignored c = false.
Proof. destruct c as [[] [] [] [] [] [] [] []]; intros H; try reflexivity; exfalso; vm_compute in H; congruence. Qed.

Lemma squeeze_latin1 t : squeeze (latin1 t) = latin1 (squeeze t).
Proof.
  unfold squeeze. induction t as [|c t IH]; auto. change (latin1 (c :: t)) with (utf8_of_byte c ++ latin1 t).
  rewrite filter_app, IH. cbn [filter]. destruct (utf8_cases c) as [[Lo E]|(x & y & E & Hx & Nx & Ny)]; rewrite E.
  - cbn [filter]. destruct (negb (ignored c)); [|reflexivity].
    change (latin1 (c :: ?l)) with (utf8_of_byte c ++ latin1 l). now rewrite E.
  - cbn [filter]. rewrite (hi_ignored x), (hi_ignored y) by auto. cbn [negb app].
    assert (ignored c = false) as ->.
    { destruct c as [[] [] [] [] [] [] [] []]; try reflexivity; vm_compute in E; discriminate. }
    cbn [negb]. change (latin1 (c :: ?l)) with (utf8_of_byte c ++ latin1 l). now rewrite E.
Qed.

Lemma latin1_lo t : Forall (fun c => (N_of_ascii c < 128)%N) (latin1 t) -> latin1 t = t.
Proof.
  intros H. apply latin1_ascii. induction t as [|c t IH]; [constructor|].
  change (latin1 (c :: t)) with (utf8_of_byte c ++ latin1 t) in H. apply Forall_app in H as [A B].
  constructor; [|now apply IH]. destruct (utf8_cases c) as [[Lo E]|(x & y & E & Hx & Nx & Ny)]; auto.
  rewrite E in A. inversion A; subst. lia.
Qed.

(** ** The text of one value *)
Lemma clean_latin1 t : clean (latin1 t) = unescape (latin1 (strip t)).
Proof.
  unfold clean. rewrite latin1_utf8, trim_space_utf8, <- latin1_utf8. fold (unesc (latin1 (strip t))).
  now rewrite unescape_unesc.
Qed.

Lemma slice_quoted_eq s t : is_quoted s = true -> slice_inner s = Some t -> s = [c_dq] ++ t ++ [c_dq].
Proof.
  unfold is_quoted, has_suffix. intros Q SI. apply andb_true_iff in Q as [Q1 Q2].
  destruct s as [|a s]; [discriminate|]. cbn [has_prefix] in Q1. rewrite andb_true_r in Q1. apply Ascii.eqb_eq in Q1. subst a.
  destruct s as [|x s _] using rev_ind; [discriminate|].
  rewrite app_comm_cons, rev_app_distr in Q2. cbn [rev app has_prefix] in Q2. rewrite andb_true_r in Q2.
  apply Ascii.eqb_eq in Q2. subst x. rewrite slice_inner_wrap in SI. now inversion SI.
Qed.

Lemma unescape_length s : length (unescape s) <= length s.
Proof.
  assert (G : forall n s, length s <= n -> length (unescape s) <= length s).
  { clear s. induction n as [|n IH]; intros s L; [destruct s; [auto|cbn in L; lia]|].
    destruct s as [|a [|b t]]; auto. cbn [unescape]. destruct (_ && _).
    - cbn [length] in *. specialize (IH t). lia.
    - change (length (a :: unescape (b :: t)) <= length (a :: b :: t)). cbn [length] in *.
      specialize (IH (b :: t)). cbn [length] in IH. lia. }
  now apply (G (length s)).
Qed.

Lemma in_latin1_length p t : in_text p t -> length (latin1 t) <= length (latin1 p).
Proof. intros (a & b & ->). rewrite !latin1_app, !app_length. lia. Qed.

Lemma clean_length t : length (clean (latin1 t)) <= length (latin1 t).
Proof.
  rewrite clean_latin1. eapply Nat.le_trans; [apply unescape_length|]. apply in_latin1_length, strip_in.
Qed.

Lemma unescape_dq s : In c_dq s -> In c_dq (unescape s).
Proof.
  assert (G : forall n s, length s <= n -> In c_dq s -> In c_dq (unescape s)).
  { clear s. induction n as [|n IH]; intros s L; [destruct s; [auto|cbn in L; lia]|].
    destruct s as [|a [|b t]]; auto. cbn [unescape]. destruct (_ && _) eqn:E.
    - intros _. now left.
    - intros [->|I]; [now left|]. right. apply (IH (b :: t)); auto. cbn [length] in *. lia. }
  now apply (G (length s)).
Qed.

Lemma value_text_from P im kt vt k p :
  in_text P kt -> in_text P vt -> value_text im (latin1 kt) (latin1 vt) = Ok (GVal (k, p)) ->
  (im = true -> quoted_in P k /\ length k <= length (latin1 kt))
  /\ (forall d, doc_of p = Some d -> comes_from P d /\ size d <= length (latin1 vt) /\ containers d = 0).
Proof.
  intros K V. pose proof (clean_length kt) as Lk. pose proof (clean_length vt) as Lv. unfold value_text. cbn zeta.
  destruct (if im then _ else _) as [ke| | |] eqn:E1; try discriminate. cbn [rbind].
  destruct (if contains_byte c_dq (clean (latin1 vt)) then _ else _) as [ve| | |] eqn:E2; try discriminate. cbn [rbind].
  destruct (snd ke ++ snd ve) eqn:NE; [|discriminate]. apply app_eq_nil in NE as [NK NV].
  assert (HK : im = true -> quoted_in P (fst ke) /\ length (fst ke) <= length (latin1 kt)).
  { intros ->. destruct (is_quoted (clean (latin1 kt))) eqn:Q; [|inversion E1; subst; discriminate].
    destruct (slice_inner (clean (latin1 kt))) as [k'|] eqn:SI; [|discriminate]. inversion E1; subst. cbn [fst].
    pose proof (slice_quoted_eq _ _ Q SI) as C. split.
    - exists (strip kt). split; [now apply in_text_trans with kt; [|apply strip_in]|]. right. now rewrite <- clean_latin1.
    - rewrite C in Lk. cbn [app length] in Lk. rewrite app_length in Lk. lia. }
  destruct (contains_byte c_dq (clean (latin1 vt))) eqn:CB.
  - destruct (is_quoted (clean (latin1 vt))) eqn:Q; [|inversion E2; subst; discriminate].
    destruct (slice_inner (clean (latin1 vt))) as [v'|] eqn:SI; [|discriminate]. inversion E2; subst. cbn [fst snd].
    intros E; inversion E; subst. split; auto. intros d D. inversion D; subst.
    pose proof (slice_quoted_eq _ _ Q SI) as C. split; [|split; auto].
    + apply cf_str. exists (strip vt). split; [now apply in_text_trans with vt; [|apply strip_in]|]. right. now rewrite <- clean_latin1.
    + rewrite C in Lv. cbn [app length] in Lv. rewrite app_length in Lv. cbn [size length] in *. lia.
  - inversion E2; subst. cbn [fst snd]. destruct (scalar_token _) as [p0|] eqn:Es; [|discriminate].
    intros E; inversion E; subst. split; auto. intros d D. pose proof (scalar_reads _ _ _ Es D) as W.
    assert (ND : ~ In c_dq (latin1 (strip vt))).
    { intros I. apply unescape_dq in I. rewrite <- clean_latin1 in I. rewrite <- not_true_iff_false in CB. apply CB.
      clear -I. unfold contains_byte. apply existsb_exists. exists c_dq. split; auto. }
    assert (EC : clean (latin1 vt) = latin1 (strip vt)).
    { rewrite clean_latin1, unescape_unesc. now apply unesc_nodq. }
    rewrite EC, squeeze_latin1 in W. rewrite (latin1_lo (squeeze (strip vt))) in W by now apply word_lo in W.
    assert (NZ : 1 <= length (latin1 vt)).
    { destruct (latin1 vt) eqn:Z; [|cbn; lia]. exfalso. rewrite <- EC in ND. cbn in Es. inversion Es; subst. discriminate. }
    split; [|split].
    + apply cf_word with (strip vt); auto. apply in_text_trans with vt; auto. apply strip_in.
    + destruct p as [| |s]; inversion D; subst; [exact NZ|]. inversion W; subst; cbn [size]; exact NZ.
    + destruct p as [| |s]; inversion D; subst; reflexivity.
Qed.

(** ** Measures of the machine's state; [w] selects [size] or [containers] *)
Section Measure.
  Context (w : bool).
  Definition mu (d : doc) : nat := if w then size d else containers d.
  Definition kap (k : str) : nat := if w then length k else 0.
  Definition pairs (es : list (str * doc)) : nat := list_sum (map (fun kd => kap (fst kd) + mu (snd kd)) es).

  Lemma mu_arr l : mu (DArr l) = 1 + list_sum (map mu l).
  Proof. unfold mu. destruct w; reflexivity. Qed.
  Lemma mu_map l : mu (DMap l) = 1 + pairs l.
  Proof. unfold pairs, kap, mu. destruct w; reflexivity. Qed.

  Definition am (a : att) : nat := match a with AKey k => kap k | _ => 0 end.
  Definition sm (stk : list (frame * att)) : nat := list_sum (map (fun fa => mu (close (fst fa)) + am (snd fa)) stk).
  Definition rm (r : root) : nat := match r with RDone d => mu d | _ => 0 end.
  Definition tm (st : tst) : nat := rm (t_root st) + sm (t_stk st) + kap (t_tk st) + kap (t_tv st).

  Lemma pairs_set es k d : pairs (dict_set es k d) <= pairs es + (kap k + mu d).
  Proof.
    unfold pairs. induction es as [|[k' d'] es IH]; cbn [dict_set map list_sum fst snd]; [cbn; lia|].
    change (list_sum (?x :: ?y)) with (x + list_sum y) in *. destruct (str_eqb_spec k' k) as [->|N];
    cbn [map fst snd]; change (list_sum (?x :: ?y)) with (x + list_sum y) in *; lia.
  Qed.

  Lemma put_mu k d f : mu (close (put_doc k (Some d) f)) <= mu (close f) + (if is_fmap f then kap k else 0) + mu d.
  Proof.
    destruct f as [es|ds]; cbn [put_doc close is_fmap].
    - rewrite !mu_map. pose proof (pairs_set es k d). lia.
    - rewrite !mu_arr, map_app, list_sum_app. cbn. lia.
  Qed.
  Lemma att_put_mu a d f : mu (close (att_put a d f)) <= mu (close f) + am a + mu d.
  Proof.
    destruct a; cbn [att_put am]; [| |lia].
    - pose proof (put_mu k d f). destruct (is_fmap f); lia.
    - pose proof (put_mu [] d f). assert (kap [] = 0) by (unfold kap; now destruct w). destruct (is_fmap f); lia.
  Qed.

  Lemma sm_cons f a t : sm ((f, a) :: t) = mu (close f) + am a + sm t.
  Proof. reflexivity. Qed.

  Lemma t_pop_mu stk r q : t_pop stk r = Ok q -> rm (snd q) + sm (fst q) <= rm r + sm stk.
  Proof.
    destruct stk as [|[f a] [|[g b] t]]; cbn [t_pop]; intros E; inversion E; subst; cbn [fst snd].
    - rewrite sm_cons. destruct r; cbn [close_root rm]; cbn; lia.
    - rewrite !sm_cons. pose proof (att_put_mu a (close f) g). lia.
  Qed.

  Lemma close_all_mu stk : forall up r n, (forall f, mu (close (up f)) <= mu (close f) + n) ->
    rm (close_all up stk r) <= rm r + sm stk + n.
  Proof.
    induction stk as [|[f a] t IH]; intros up r n U; cbn [close_all]; [cbn; lia|].
    rewrite sm_cons. destruct t as [|fb t].
    - destruct r; cbn [close_root rm]; cbn [sm map list_sum]; specialize (U f); cbn; lia.
    - specialize (IH (att_put a (close (up f))) r (am a + mu (close (up f)))).
      specialize (U f). eapply Nat.le_trans; [apply IH|lia].
      intros g. pose proof (att_put_mu a (close (up f)) g). lia.
  Qed.
End Measure.

(** ** The invariant: [p] is the part of the text that has been read. *)
Definition ffrom (p : str) (f : frame) : Prop :=
  match f with
  | FMap es => Forall (fun kd => quoted_in p (fst kd) /\ comes_from p (snd kd)) es
  | FArr ds => Forall (comes_from p) ds
  end.
Definition afrom (p : str) (f : frame) (a : att) : Prop :=
  match a with AKey k => quoted_in p k | _ => True end.
(** An element attached to a map would get an empty key, so arrays attach to arrays. *)
Fixpoint sfrom (p : str) (stk : list (frame * att)) : Prop :=
  match stk with
  | [] => True
  | (f, a) :: t =>
      ffrom p f
      /\ match a, t with
         | AKey k, _ => quoted_in p k
         | AElem, (g, _) :: _ => is_fmap g = false
         | AElem, [] => False
         | ANone, _ => True
         end
      /\ sfrom p t
  end.
Definition rfrom (p : str) (r : root) : Prop := match r with RDone d => comes_from p d | _ => True end.

Definition where_from (p : str) (m : pmode) (tk tv : str) : Prop :=
  match m with
  | MKeys => tk = [] /\ tv = []
  | MKeyName => tv = [] /\ exists kt, tk = latin1 kt /\ ends_with p kt
  | MColumn | MNext => tv = [] /\ exists kt, tk = latin1 kt /\ in_text p kt
  | MValue => (exists kt, tk = latin1 kt /\ in_text p kt) /\ exists vt, tv = latin1 vt /\ ends_with p vt
  end.

Record from_inv (p : str) (st : tst) : Prop := {
  fi_word : where_from p (t_mode st) (t_tk st) (t_tv st);
  fi_stk : sfrom p (t_stk st);
  fi_root : rfrom p (t_root st) }.

Lemma where_nil p m : where_from p m [] [].
Proof.
  assert (E : exists t, ([] : str) = latin1 t /\ ends_with p t) by (exists []; split; [reflexivity|apply ends_nil]).
  assert (I : exists t, ([] : str) = latin1 t /\ in_text p t) by (exists []; split; [reflexivity|apply in_nil]).
  destruct m; cbn; auto.
Qed.

Lemma ffrom_app p x f : ffrom p f -> ffrom (p ++ x) f.
Proof.
  destruct f; cbn; intros F; (eapply Forall_impl; [|exact F]).
  - intros kd [A B]. split; [now apply quoted_in_app|now apply comes_from_app].
  - intros d D. now apply comes_from_app.
Qed.
Lemma sfrom_app p x stk : sfrom p stk -> sfrom (p ++ x) stk.
Proof.
  induction stk as [|[f a] t IH]; cbn; auto. intros (F & A & S). split; [now apply ffrom_app|split; auto].
  destruct a; auto. now apply quoted_in_app.
Qed.
Lemma rfrom_app p x r : rfrom p r -> rfrom (p ++ x) r.
Proof. destruct r; cbn; auto. apply comes_from_app. Qed.

Lemma close_from p f : ffrom p f -> comes_from p (close f).
Proof. destruct f; cbn; intros F; [now apply cf_map|now apply cf_arr]. Qed.
Lemma put_from p k d f : (is_fmap f = true -> quoted_in p k) -> comes_from p d -> ffrom p f -> ffrom p (put_doc k (Some d) f).
Proof.
  intros K D. destruct f as [es|ds]; cbn.
  - intros F. rewrite Forall_forall in *. intros x I. apply dict_set_In in I as [->|I]; auto.
  - intros F. apply Forall_app. auto.
Qed.
Lemma put_is_fmap k od f : is_fmap (put_doc k od f) = is_fmap f.
Proof. destruct od, f; reflexivity. Qed.

Lemma t_value_from p w kt vt stk q :
  in_text p kt -> in_text p vt -> sfrom p stk -> t_value (latin1 kt) (latin1 vt) stk = Ok q ->
  sfrom p (fst q) /\ sm w (fst q) <= sm w stk + kap w (latin1 kt) + kap w (latin1 vt).
Proof.
  intros K V S. destruct stk as [|[f a] t]; cbn [t_value]; [intros E; inversion E; cbn; split; [auto|lia]|].
  destruct (value_text (is_fmap f) (latin1 kt) (latin1 vt)) as [r| | |] eqn:E; try discriminate. cbn [rbind].
  destruct r as [[k' pl]|e]; [|intros Q; inversion Q; cbn [fst]; split; [auto|lia]].
  apply value_text_from with (P := p) in E as [Lk D]; auto. intros Q; inversion Q; subst. cbn [fst put_top].
  cbn [sfrom] in *. destruct S as (Sf & Sa & St). destruct (doc_of pl) as [d|] eqn:Ed; [|cbn [put_doc]; split; [auto|lia]].
  specialize (D _ eq_refl) as (C & Sz & Nc). split.
  - split; [|split; auto]. apply put_from; auto. intros M. now apply Lk.
  - rewrite !sm_cons. pose proof (put_mu w k' d f) as Pm.
    assert (mu w d <= kap w (latin1 vt)) by (unfold mu, kap; destruct w; lia).
    assert ((if is_fmap f then kap w k' else 0) <= kap w (latin1 kt)).
    { destruct (is_fmap f); [|lia]. destruct (Lk eq_refl) as [_ L]. unfold kap; destruct w; lia. }
    lia.
Qed.

Lemma t_pop_from p stk r q : sfrom p stk -> rfrom p r -> t_pop stk r = Ok q -> sfrom p (fst q) /\ rfrom p (snd q).
Proof.
  intros S R. destruct stk as [|[f a] [|[g b] t]]; cbn [t_pop]; intros E; inversion E; subst; cbn [fst snd].
  - destruct S as (Sf & Sa & _). split; [exact I|]. destruct r; cbn; auto. now apply close_from.
  - cbn [sfrom] in S. destruct S as (Sf & Sa & Sg & Sb & St). split; auto. cbn [sfrom]. split; [|split; auto].
    apply close_from in Sf. destruct a; cbn [att_put]; auto; apply put_from; auto. congruence.
Qed.

Lemma t_attach_from p w kt stk q :
  in_text p kt -> t_attach (latin1 kt) stk = Ok q ->
  match fst q, stk with
  | AKey k, _ => quoted_in p k
  | AElem, (g, _) :: _ => is_fmap g = false
  | AElem, [] => False
  | ANone, _ => True
  end /\ am w (fst q) <= kap w (latin1 kt).
Proof.
  intros K. destruct stk as [|[f a] t]; cbn [t_attach]; [intros E; inversion E; cbn; split; [exact I|lia]|].
  destruct (is_fmap f) eqn:M; [|intros E; inversion E; cbn; split; [auto|lia]]. unfold unquote_key.
  destruct (is_quoted (latin1 kt)) eqn:Q; [|cbn; intros E; inversion E; cbn; split; [exact I|lia]].
  destruct (slice_inner (latin1 kt)) eqn:SI; cbn; [|discriminate]. intros E; inversion E; subst. cbn.
  pose proof (slice_quoted_eq _ _ Q SI) as C. split.
  - exists kt. auto.
  - rewrite C. unfold kap. destruct w; [|lia]. cbn [app length]. rewrite app_length. lia.
Qed.

Ltac tmc := unfold tm; cbn [t_root t_stk t_tk t_tv t_set_mode t_add_key t_add_val t_set_ps].
Lemma kap_nil w : kap w [] = 0.
Proof. unfold kap. now destruct w. Qed.

Definition words (p tk tv : str) : Prop :=
  (exists kt, tk = latin1 kt /\ in_text p kt) /\ exists vt, tv = latin1 vt /\ in_text p vt.

Lemma where_words p m tk tv : where_from p m tk tv -> words p tk tv.
Proof.
  assert (N : exists t, ([] : str) = latin1 t /\ in_text p t) by (exists []; split; [reflexivity|apply in_nil]).
  destruct m; cbn; intros H.
  - destruct H as [-> ->]. split; auto.
  - destruct H as [-> (kt & -> & E)]. split; auto. exists kt. split; auto. now apply ends_in.
  - destruct H as [-> E]. split; auto.
  - destruct H as [K (vt & -> & E)]. split; auto. exists vt. split; auto. now apply ends_in.
  - destruct H as [-> E]. split; auto.
Qed.

Lemma t_end_from p w pop st st' :
  words p (t_tk st) (t_tv st) -> sfrom p (t_stk st) -> rfrom p (t_root st) -> t_end pop st = Ok st' ->
  from_inv p st' /\ tm w st' <= tm w st.
Proof.
  intros [(kt & Ek & K) (vt & Ev & V)] S R. unfold t_end. rewrite Ek, Ev.
  destruct (t_value _ _ _) as [q| | |] eqn:E; try discriminate. cbn [rbind].
  apply t_value_from with (p := p) (w := w) in E as [Sq Mq]; auto.
  destruct pop.
  - destruct (t_pop _ _) as [l| | |] eqn:E2; try discriminate. cbn [rbind].
    pose proof (t_pop_mu w _ _ _ E2) as M2. apply t_pop_from with (p := p) in E2 as [? ?]; auto.
    intros Q; inversion Q; subst. split; [constructor; cbn; auto; apply where_nil|].
    tmc. rewrite Ek, Ev. rewrite !kap_nil. lia.
  - cbn [rbind fst snd]. intros Q; inversion Q; subst. split; [constructor; cbn; auto; apply where_nil|].
    tmc. rewrite Ek, Ev. rewrite !kap_nil. lia.
Qed.

(** The cost of reading one byte. *)
Definition opens (ps : bool) (b : ascii) : bool := negb ps && (Ascii.eqb b c_lb || Ascii.eqb b c_ls).
Definition cost (w ps : bool) (b : ascii) : nat := if w then length (utf8_of_byte b) else if opens ps b then 1 else 0.

Lemma cost_pos b : 1 <= length (utf8_of_byte b).
Proof. destruct (utf8_cases b) as [[_ E]|(x & y & E & _)]; rewrite E; cbn; lia. Qed.

Lemma kap_snoc w s b : kap w (s ++ utf8_of_byte b) = kap w s + (if w then length (utf8_of_byte b) else 0).
Proof. unfold kap. destruct w; [now rewrite app_length|lia]. Qed.

Lemma step_mode_from p w q b st st' :
  from_inv p st -> t_step_mode q b st = Ok st' ->
  from_inv (p ++ [b]) st' /\ tm w st' <= tm w st + cost w (t_ps st) b.
Proof.
  intros T. pose proof T as [W S R].
  pose proof (sfrom_app p [b] _ S) as S'. pose proof (rfrom_app p [b] _ R) as R'.
  assert (Snoc : forall t, latin1 t ++ utf8_of_byte b = latin1 (t ++ [b])).
  { intros t. rewrite latin1_app. cbn. now rewrite app_nil_r. }
  assert (C0 : (if w then length (utf8_of_byte b) else 0) <= cost w (t_ps st) b).
  { unfold cost. destruct w; lia. }
  assert (Val : t_mode st = MValue \/ t_mode st = MNext -> (let st := t_set_mode MValue st in
        if negb (t_ps st) then
          if Ascii.eqb b c_lb then t_open_map st
          else if Ascii.eqb b c_rb then t_end true st
          else if Ascii.eqb b c_ls then t_open_array st
          else if Ascii.eqb b c_rs then t_end true st
          else if Ascii.eqb b c_com then t_end false st
          else Ok (t_add_val (utf8_of_byte b) st)
        else Ok (t_add_val (utf8_of_byte b) st)) = Ok st' -> 
        from_inv (p ++ [b]) st' /\ tm w st' <= tm w st + cost w (t_ps st) b).
  { intros M. pose proof (where_words _ _ _ _ W) as Ws.
    assert (Ws' : words (p ++ [b]) (t_tk st) (t_tv st)).
    { destruct Ws as [(kt & ? & ?) (vt & ? & ?)]. split; eexists; split; eauto; now apply in_text_app. }
    assert (AV : from_inv (p ++ [b]) (t_add_val (utf8_of_byte b) (t_set_mode MValue st))
      /\ tm w (t_add_val (utf8_of_byte b) (t_set_mode MValue st)) <= tm w st + cost w (t_ps st) b).
    { split.
      - constructor; cbn; auto.
        assert (V : exists vt, t_tv st = latin1 vt /\ ends_with p vt).
        { destruct M as [M|M]; rewrite M in W; cbn in W; [tauto|]. destruct W as [-> _]. exists []. split; [reflexivity|apply ends_nil]. }
        destruct V as (vt & -> & Ve). split; [apply Ws'|]. exists (vt ++ [b]). split; auto. now apply ends_snoc.
      - tmc. rewrite kap_snoc. lia. }
    assert (Op : forall f (a : att), ffrom (p ++ [b]) f -> mu w (close f) = 1 -> opens (t_ps st) b = true ->
       (match a, t_stk st with
        | AKey k, _ => quoted_in p k
        | AElem, (g, _) :: _ => is_fmap g = false
        | AElem, [] => False
        | ANone, _ => True
        end) -> am w a <= kap w (t_tk st) -> forall m r c e, rfrom (p ++ [b]) r -> rm w r = rm w (t_root st) ->
        from_inv (p ++ [b]) (TSt m (t_ps st) [] [] ((f, a) :: t_stk st) r c e)
        /\ tm w (TSt m (t_ps st) [] [] ((f, a) :: t_stk st) r c e) <= tm w st + cost w (t_ps st) b).
    { intros f a Ff Mf O A Am m r c e Rr Re. split.
      - constructor; cbn; auto; [apply where_nil|]. split; auto. split; auto.
        destruct a; auto. now apply quoted_in_app.
      - unfold tm. cbn [t_root t_stk t_tk t_tv]. rewrite sm_cons, Re, Mf. unfold cost. rewrite O.
        assert (kap w [] = 0) as -> by (unfold kap; now destruct w). pose proof (cost_pos b). destruct w; lia. }
    assert (End : forall pop, t_end pop (t_set_mode MValue st) = Ok st' ->
        from_inv (p ++ [b]) st' /\ tm w st' <= tm w st + cost w (t_ps st) b).
    { intros pop E. apply t_end_from with (p := p ++ [b]) (w := w) in E as [? L]; auto. split; auto.
      revert L; tmc; lia. }
    destruct Ws as [(kt & Ek & K) _].
    cbn zeta. destruct (negb _) eqn:Np; [|intros E; inversion E; subst; auto].
    destruct (Ascii.eqb b c_lb) eqn:B1.
    { unfold t_open_map. cbn [t_set_mode t_stk t_tk t_ps t_root t_cnt t_errs]. rewrite Ek.
      destruct (t_attach _ _) as [a| | |] eqn:E; try discriminate. cbn [rbind].
      apply t_attach_from with (p := p) (w := w) in E as [A1 A2]; auto. intros Q; inversion Q; subst.
      apply Op; auto.
      - constructor.
      - cbn [close]. now rewrite mu_map.
      - unfold opens. cbn in Np. rewrite Np, B1. reflexivity.
      - now rewrite Ek.
      - destruct (t_root st); auto; exact I.
      - destruct (t_root st); auto. }
    destruct (Ascii.eqb b c_rb); [apply End|].
    destruct (Ascii.eqb b c_ls) eqn:B2.
    { unfold t_open_array. cbn [t_set_mode t_stk t_tk t_ps t_root t_cnt t_errs]. rewrite Ek.
      intros H0.
      assert (H1 : (q <-r t_attach (latin1 kt) (t_stk st) ;;
         Ok (TSt MNext (t_ps st) [] [] ((FArr [], fst q) :: t_stk st) (t_root st) (t_cnt st) (t_errs st ++ snd q))) = Ok st')
        by (destruct (t_stk st); [discriminate|exact H0]). clear H0. revert H1.
      destruct (t_attach _ _) as [a| | |] eqn:E; try discriminate. cbn [rbind].
      apply t_attach_from with (p := p) (w := w) in E as [A1 A2]; auto. intros Q; inversion Q; subst.
      apply Op; auto.
      - constructor.
      - cbn [close]. now rewrite mu_arr.
      - unfold opens. cbn in Np. rewrite Np, B2, orb_true_r. reflexivity.
      - now rewrite Ek. }
    destruct (Ascii.eqb b c_rs); [apply End|].
    destruct (Ascii.eqb b c_com); [apply End|].
    intros E; inversion E; subst; auto. }
  assert (Same : forall m, where_from (p ++ [b]) m (t_tk st) (t_tv st) ->
    from_inv (p ++ [b]) (t_set_mode m st) /\ tm w (t_set_mode m st) <= tm w st + cost w (t_ps st) b).
  { intros m H. split; [constructor; cbn; auto|]. tmc. lia. }
  unfold t_step_mode. destruct (t_mode st) eqn:M; cbn in W.
  - destruct W as [Wk Wv]. destruct (Ascii.eqb b c_rb).
    + unfold t_close_keys. destruct (t_pop _ _) as [l| | |] eqn:E; try discriminate. cbn [rbind].
      pose proof (t_pop_mu w _ _ _ E) as M2. apply t_pop_from with (p := p ++ [b]) in E as [? ?]; auto.
      intros Q; inversion Q; subst. split; [constructor; cbn; auto; apply where_nil|].
      tmc. rewrite Wk, Wv. lia.
    + destruct q; intros E; inversion E; subst.
      * split; [constructor; cbn; auto|].
        -- split; auto. rewrite Wk. exists [b]. split; [exact (Snoc [])|]. now exists p.
        -- tmc. rewrite kap_snoc. lia.
      * split; [constructor; auto; rewrite M; now split|]. lia.
  - destruct W as (Wv & kt & Wk & We). intros E; inversion E; subst.
    assert (Tm : forall m, tm w (t_add_key (utf8_of_byte b) (t_set_mode m st)) <= tm w st + cost w (t_ps st) b).
    { intros m. tmc. rewrite kap_snoc. lia. }
    pose proof (ends_snoc _ _ b We) as We'.
    destruct q.
    + split; [constructor; cbn; auto|apply Tm]. split; auto. exists (kt ++ [b]). rewrite Wk. split; auto. now apply ends_in.
    + split; [constructor; cbn; auto; rewrite M; cbn|apply (Tm (t_mode st))].
      split; auto. exists (kt ++ [b]). rewrite Wk. auto.
  - destruct W as (Wv & kt & Wk & We). apply in_text_app with (x := [b]) in We. intros E; inversion E; subst.
    destruct (Ascii.eqb b c_col); [apply Same; cbn; eauto|].
    split; [constructor; auto; rewrite M; cbn; eauto|lia].
  - cbn [andb]. apply Val. now left.
  - destruct (true && _).
    + intros E; inversion E; subst. destruct W as (Wv & kt & Wk & We). apply in_text_app with (x := [b]) in We.
      split; [constructor; auto; rewrite M; cbn; eauto|lia].
    + apply Val. now right.
Qed.

Lemma step_from p w prev b st st' :
  from_inv p st -> t_step prev b st = Ok st' ->
  from_inv (p ++ [b]) st' /\ tm w st' <= tm w st + cost w (t_ps st) b.
Proof.
  intros T. pose proof T as [W S R]. unfold t_step. cbn zeta.
  destruct (Ascii.eqb b c_dq && _) eqn:Eq.
  - apply andb_true_iff in Eq as [Eq _]. apply Ascii.eqb_eq in Eq. subst b.
    assert (CE : forall ps, cost w ps c_dq = if w then 1 else 0) by (intros []; unfold cost; destruct w; reflexivity).
    assert (SM : forall ps c, t_step_mode true c_dq (t_set_ps ps c st) = Ok st' ->
      from_inv (p ++ [c_dq]) st' /\ tm w st' <= tm w st + cost w (t_ps st) c_dq).
    { intros ps c H. apply step_mode_from with (p := p) (w := w) in H as [? L]; [|constructor; cbn; auto].
      split; auto. rewrite !CE in *. exact L. }
    destruct (negb (t_ps st)); [apply SM|].
    assert (AV : t_mode st = MValue \/ t_mode st = MNext ->
        t_end false (t_add_val (utf8_of_byte c_dq) (t_set_ps false (count_close (t_cnt st)) st)) = Ok st' ->
        from_inv (p ++ [c_dq]) st' /\ tm w st' <= tm w st + cost w (t_ps st) c_dq).
    { intros M E. apply t_end_from with (p := p ++ [c_dq]) (w := w) in E as [? L]; cbn.
      - split; auto. eapply Nat.le_trans; [exact L|]. unfold tm. cbn [t_root t_stk t_tk t_tv t_add_val t_set_ps].
        rewrite kap_snoc, CE. destruct w; cbn; lia.
      - pose proof (where_words _ _ _ _ W) as [(kt & Ek & K) _].
        split; [exists kt; split; auto; now apply in_text_app|].
        assert (V : exists vt, t_tv st = latin1 vt /\ ends_with p vt).
        { destruct M as [M|M]; rewrite M in W; cbn in W; [tauto|]. destruct W as [-> _]. exists []. split; [reflexivity|apply ends_nil]. }
        destruct V as (vt & -> & Ve). exists (vt ++ [c_dq]). split; [|now apply ends_in, ends_snoc].
        now rewrite latin1_app.
      - now apply sfrom_app.
      - now apply rfrom_app. }
    change (t_mode (t_set_ps false (count_close (t_cnt st)) st)) with (t_mode st).
    destruct (t_mode st) eqn:M; try apply SM; apply AV; auto.
  - destruct (t_ps st) eqn:P; cbn [negb].
    + intros H. apply step_mode_from with (p := p) (w := w) in H as [? L]; auto. now rewrite P in L.
    + intros H. apply step_mode_from with (p := p) (w := w) in H as [? L]; [|constructor; cbn; auto]. auto.
Qed.

(** ** The loop *)
Definition opened (c : counts) : nat := n_lb c + n_ls c.
Definition cap (w : bool) (p : str) (c : counts) : nat := if w then length (latin1 p) else opened c.

Lemma step_cap w p prev b st st' :
  t_step prev b st = Ok st' -> cap w p (t_cnt st) + cost w (t_ps st) b <= cap w (p ++ [b]) (t_cnt st').
Proof.
  intros H. unfold cap, cost. destruct w.
  { rewrite latin1_app, app_length. cbn. rewrite app_nil_r. lia. }
  apply t_step_cnt in H. cbn zeta in H. unfold opens.
  destruct (Ascii.eqb b c_dq && _) eqn:Eq.
  - apply andb_true_iff in Eq as [Eq _]. apply Ascii.eqb_eq in Eq. subst b. unfold cnt_ps in H.
    replace (negb (t_ps st) && _) with false by now rewrite andb_false_r.
    destruct (t_ps st); inversion H as [[H1 H2]]; rewrite H1; unfold opened; cbn; lia.
  - unfold cnt_ps in H. destruct (t_ps st); inversion H as [[H1 H2]]; cbn [negb andb].
    + rewrite H1. rewrite ?H2. cbn [negb andb]. lia.
    + rewrite H1. rewrite ?H2. cbn [negb andb]. unfold opened, count_bracket. destruct (Ascii.eqb b c_lb); [cbn; lia|].
      destruct (Ascii.eqb_spec b c_rb) as [->|]; [cbn; lia|].
      destruct (Ascii.eqb b c_ls); [cbn; lia|]. destruct (Ascii.eqb b c_rs); cbn; lia.
Qed.

Lemma loop_from w s : forall p prev st st',
  from_inv p st -> tm w st <= cap w p (t_cnt st) -> t_loop prev s st = Ok st' ->
  from_inv (p ++ s) st' /\ tm w st' <= cap w (p ++ s) (t_cnt st').
Proof.
  induction s as [|b s IH]; intros p prev st st' T M; cbn [t_loop].
  - intros E; inversion E; subst. rewrite app_nil_r. auto.
  - destruct (t_step prev b st) as [st1| | |] eqn:E; try discriminate. cbn [rbind]. intros L.
    pose proof (step_cap w p _ _ _ _ E) as C. apply step_from with (p := p) (w := w) in E as [T1 M1]; auto.
    apply IH with (p := p ++ [b]) in L; auto; [|lia]. now rewrite <- app_assoc in L.
Qed.

Lemma close_all_from p stk : forall up r,
  (forall f, (match stk with (g, _) :: _ => is_fmap f = is_fmap g | [] => True end) -> ffrom p f -> ffrom p (up f)) ->
  sfrom p stk -> rfrom p r -> rfrom p (close_all up stk r).
Proof.
  induction stk as [|[f a] t IH]; intros up r U S R; cbn [close_all]; auto.
  cbn [sfrom] in S. destruct S as (Sf & Sa & St). apply U in Sf; auto. destruct t as [|[g b] t].
  - destruct r; cbn; auto. now apply close_from.
  - apply IH; auto. intros h Hh Hf. apply close_from in Sf. destruct a; cbn [att_put]; auto; apply put_from; auto. congruence.
Qed.

Lemma tparse_from s d : tparse s = Ok (GVal (Some d)) ->
  comes_from s d /\ size d <= length (latin1 s)
  /\ containers d <= occurrences c_lb (fst (outside None false s)) + occurrences c_ls (fst (outside None false s)).
Proof.
  unfold tparse. destruct (pre_errs s); [|discriminate]. destruct (str_eqb_spec s (lit "{}")) as [->|N].
  { intros E; inversion E. split; [apply cf_map; constructor|]. vm_compute. lia. }
  destruct (t_loop None s tst0) as [st| | |] eqn:E; try discriminate. cbn [rbind].
  destruct (t_errs st); [|discriminate]. destruct (post_errs _); [|discriminate].
  assert (T0' : from_inv [] tst0).
  { constructor; cbn; auto. split; exists []; (split; [reflexivity|]); [apply in_nil|apply ends_nil]. }
  pose proof E as C. apply loop_counts in C. cbn [tst0 t_ps t_cnt] in C.
  destruct (loop_from true s [] None tst0 st T0' (Nat.le_refl _) E) as [T M1].
  destruct (loop_from false s [] None tst0 st T0' (Nat.le_refl _) E) as [_ M2].
  cbn [app] in *. destruct T as [_ S R]. intros Q. inversion Q as [Q'].
  assert (F : rfrom s (collapse (t_stk st) (t_root st))) by (apply close_all_from; auto).
  assert (B : forall w, rm w (collapse (t_stk st) (t_root st)) <= tm w st).
  { intros w. unfold tm. pose proof (close_all_mu w (t_stk st) (fun f => f) (t_root st) 0) as H.
    unfold collapse. eapply Nat.le_trans; [apply H; intros; lia|lia]. }
  pose proof (B true) as B1. pose proof (B false) as B2.
  destruct (collapse _ _); cbn in Q'; inversion Q'; subst. cbn [rm mu] in *. split; [exact F|].
  unfold cap, opened, cadd in *. cbn in C. split; lia.
Qed.

Lemma parse_from X h s m h' :
  reachable X h -> Parse X s h = Ok (GVal m, h') ->
  exists m' d, m = Some m' /\ rep_obj NoNils (view h') (new_in h) (IMap m') d
    /\ comes_from s d /\ size d <= length (latin1 s)
    /\ containers d <= occurrences c_lb (fst (outside None false s)) + occurrences c_ls (fst (outside None false s)).
Proof.
  intros R E. pose proof (parse_refines X h s R) as P. unfold parse_result in P.
  destruct (tparse s) as [[[d|]|e]| | |] eqn:TP; try contradiction; try congruence.
  2: { destruct P as (_ & h1 & P & _). congruence. }
  destruct P as (h1 & m1 & P & _ & _ & D & _). rewrite P in E. inversion E; subst.
  exists m1, d. destruct (tparse_from s d TP) as (A & B & C). repeat split; auto.
Qed.

Lemma parse_comes X h s m h' :
  reachable X h -> Parse X s h = Ok (GVal m, h') ->
  exists m' d, m = Some m' /\ rep_obj NoNils (view h') (new_in h) (IMap m') d /\ comes_from s d.
Proof. intros R E. destruct (parse_from X h s m h' R E) as (m' & d & A & B & C & _). exists m', d. auto. Qed.

Lemma parse_size X h s m h' :
  reachable X h -> Parse X s h = Ok (GVal m, h') ->
  exists m' d, m = Some m' /\ rep_obj NoNils (view h') (new_in h) (IMap m') d
    /\ size d <= length (latin1 s)
    /\ containers d <= occurrences c_lb (fst (outside None false s)) + occurrences c_ls (fst (outside None false s)).
Proof. intros R E. destruct (parse_from X h s m h' R E) as (m' & d & A & B & _ & C & D). exists m', d. auto. Qed.

Lemma backslash_quotes X h :
  reachable X h ->
  parses X h (lit "{""a"":\""b\""}") (GVal (DMap [(lit "a", DScal (SStr (lit "b")))]))
  /\ In "b"%char (fst (outside None false (lit "{""a"":\""b\""}"))).
Proof. intros R. split; [apply parses_tree; [auto|vm_compute; reflexivity]|vm_compute; tauto]. Qed.
