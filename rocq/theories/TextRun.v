(** * The tree machine on well-formed texts *)
From Coq Require Import Ascii String List NArith ZArith Bool Lia.
From Verif Require Import GoStr GoNum GoFloat Heap Common ValueModel ArrayModel MapModel ParserModel
  StrLemmas SpecDict SpecNum SpecFloat SpecDoc SpecText TreeParser.
Import ListNotations.

(** ** Strings *)

Lemma latin1_utf8 s : latin1 s = utf8_str s.
Proof. unfold latin1, utf8_str. induction s; cbn; congruence. Qed.

Lemma unescape_unesc s : unescape s = unesc s.
Proof.
  assert (H : forall n s, length s <= n -> unescape s = unesc s).
  { clear s. induction n as [|n IH]; intros s L.
    - destruct s; [reflexivity | cbn in L; lia].
    - destruct s as [|a t]; [reflexivity|]. rewrite unesc_cons. cbn [unescape length] in *.
      destruct t as [|b t']; [reflexivity|]. cbn [length] in L.
      rewrite !IH by (cbn [length]; lia). reflexivity. }
  eapply H; eauto.
Qed.

Lemma latin1_app a b : latin1 (a ++ b) = latin1 a ++ latin1 b.
Proof. apply flat_map_app. Qed.

Lemma utf8_byte_In x c : (N_of_ascii x < 128)%N -> In x (utf8_of_byte c) -> x = c.
Proof.
  intros L H. destruct (N.ltb_spec (N_of_ascii c) 128) as [E|E].
  - rewrite utf8_ascii in H by auto. destruct H as [H|[]]. auto.
  - destruct (utf8_hi_bytes c E) as (a & b & E' & A & B). rewrite E' in H.
    destruct H as [<-|[<-|[]]]; lia.
Qed.

Lemma latin1_In x s : (N_of_ascii x < 128)%N -> In x (latin1 s) -> In x s.
Proof.
  intros L H. apply in_flat_map in H as (c & I & J). now apply utf8_byte_In in J as ->.
Qed.

Lemma utf8_byte_last c : c <> c_bs -> last (utf8_of_byte c) c_dq <> c_bs.
Proof.
  intros N. destruct (N.ltb_spec (N_of_ascii c) 128) as [E|E].
  - now rewrite utf8_ascii.
  - destruct (utf8_hi_bytes c E) as (a & b & -> & A & B). cbn. intros ->.
    vm_compute in B. intuition discriminate.
Qed.

Lemma utf8_byte_nil c : utf8_of_byte c <> [].
Proof. unfold utf8_of_byte. destruct (N.ltb _ _); discriminate. Qed.

Lemma last_app_ne {A} (a b : list A) d : b <> [] -> last (a ++ b) d = last b d.
Proof.
  intros H. destruct (list_last_case b) as [->|(l & x & ->)]; [congruence|].
  now rewrite app_assoc, !last_last.
Qed.

Lemma latin1_last b : (forall u, b <> u ++ [c_bs]) -> last (latin1 b) c_dq <> c_bs.
Proof.
  intros H. destruct (list_last_case b) as [->|(l & x & ->)]; [discriminate|].
  rewrite latin1_app. cbn [latin1 flat_map]. rewrite app_nil_r.
  rewrite last_app_ne by apply utf8_byte_nil. apply utf8_byte_last. intros ->. now apply (H l).
Qed.

Definition quoted (s : str) : str := c_dq :: s ++ [c_dq].

Lemma latin1_quoted b : latin1 (quoted b) = quoted (latin1 b).
Proof. unfold quoted. change (c_dq :: b ++ [c_dq]) with ([c_dq] ++ b ++ [c_dq]). now rewrite !latin1_app. Qed.

Lemma trim_quoted s : trim_space (quoted s) = quoted s.
Proof.
  apply trim_space_id.
  - intros c t E. inversion E; subst. split; reflexivity.
  - intros c t E. unfold quoted in E. change (c_dq :: s ++ [c_dq]) with ((c_dq :: s) ++ [c_dq]) in E.
    apply app_inj_tail in E as [_ <-]. split; reflexivity.
Qed.

Lemma clean_quoted s : last s c_dq <> c_bs -> clean (quoted s) = quoted (unesc s).
Proof.
  intros H. unfold clean. rewrite trim_quoted. change (unesc (quoted s) = quoted (unesc s)).
  unfold quoted. rewrite unesc_cons. destruct (s ++ [c_dq]) as [|d t] eqn:E.
  - destruct s; discriminate.
  - change (Ascii.eqb c_dq c_bs) with false. cbn [andb]. f_equal. rewrite <- E.
    rewrite unesc_app; [reflexivity|]. auto.
Qed.

Lemma is_quoted_quoted s : is_quoted (quoted s) = true.
Proof.
  unfold is_quoted, quoted. rewrite has_prefix1, ascii_eqb_refl.
  change (c_dq :: s ++ [c_dq]) with ((c_dq :: s) ++ [c_dq]).
  now rewrite has_suffix1_app, ascii_eqb_refl.
Qed.

Lemma slice_quoted s : slice_inner (quoted s) = Some s.
Proof. apply slice_inner_wrap. Qed.

Lemma contains_quoted s : contains_byte c_dq (quoted s) = true.
Proof. reflexivity. Qed.

(** ** Bytes *)

Lemma blank_nstruct c : blank c -> ~ structural c /\ c <> c_bs.
Proof.
  intros [->|[->|[->| ->]]]; (split; [intros [H|[H|[H|[H|H]]]]; discriminate H | discriminate]).
Qed.
Lemma blank_ncol c : blank c -> c <> c_col.
Proof. intros [->|[->|[->| ->]]]; discriminate. Qed.

Definition no_bracket (c : ascii) : Prop := c <> c_lb /\ c <> c_rb /\ c <> c_ls /\ c <> c_rs.

Lemma nstruct c : ~ structural c -> c <> c_dq /\ no_bracket c.
Proof. unfold structural, no_bracket. intros H. repeat split; intros ->; tauto. Qed.

Lemma count_bracket_no c k : no_bracket c -> count_bracket c k = k.
Proof.
  intros (A & B & C & D). unfold count_bracket.
  destruct (Ascii.eqb_spec c c_lb), (Ascii.eqb_spec c c_rb), (Ascii.eqb_spec c c_ls), (Ascii.eqb_spec c c_rs);
    congruence.
Qed.

(** ** The loop over concatenations *)

Fixpoint lastp (prev : option ascii) (s : str) : option ascii :=
  match s with [] => prev | c :: t => lastp (Some c) t end.

Lemma lastp_app p a b : lastp p (a ++ b) = lastp (lastp p a) b.
Proof. revert p; induction a; cbn; auto. Qed.

Lemma lastp_snoc p a c : lastp p (a ++ [c]) = Some c.
Proof. now rewrite lastp_app. Qed.

Lemma lastp_nbs p s : p <> Some c_bs -> Forall (fun c => c <> c_bs) s -> lastp p s <> Some c_bs.
Proof.
  intros H F. revert p H. induction F; intros p Hp; cbn; auto. apply IHF. congruence.
Qed.

Lemma t_loop_app a : forall prev b st,
  t_loop prev (a ++ b) st = rbind (t_loop prev a st) (fun st' => t_loop (lastp prev a) b st').
Proof.
  induction a as [|c a IH]; intros; [reflexivity|]. cbn [app t_loop lastp].
  destruct (t_step prev c st); auto. cbn [rbind]. apply IH.
Qed.

Lemma t_loop_ok a prev b st st' : t_loop prev a st = Ok st' -> t_loop prev (a ++ b) st = t_loop (lastp prev a) b st'.
Proof. intros H. now rewrite t_loop_app, H. Qed.

(** Counters grown by balanced texts. *)
Definition cbal (c c' : counts) : Prop :=
  (n_lb c' + n_rb c = n_lb c + n_rb c' /\ n_ls c' + n_rs c = n_ls c + n_rs c'
   /\ n_oq c' + n_cq c = n_oq c + n_cq c')%nat.

Lemma cbal_refl c : cbal c c.
Proof. unfold cbal; lia. Qed.
Lemma cbal_trans a b c : cbal a b -> cbal b c -> cbal a c.
Proof. unfold cbal; lia. Qed.

(** Steps on bytes without structure. *)
Lemma t_step_plain prev b st :
  t_ps st = false -> b <> c_dq -> no_bracket b ->
  t_step prev b st = t_step_mode false b st.
Proof.
  intros P D N. unfold t_step. rewrite P.
  destruct (Ascii.eqb_spec b c_dq); [congruence|]. cbn [andb negb].
  rewrite count_bracket_no by auto. destruct st; cbn in *; subst; reflexivity.
Qed.

Lemma eqb_ne a b : a <> b -> Ascii.eqb a b = false.
Proof. destruct (Ascii.eqb_spec a b); congruence. Qed.

(** Gaps between members. *)
Lemma keys_gap s : forall prev tk tv stk r c e,
  Forall (fun x => ~ structural x) s ->
  t_loop prev s (TSt MKeys false tk tv stk r c e) = Ok (TSt MKeys false tk tv stk r c e).
Proof.
  induction s as [|b s IH]; intros * F; [reflexivity|]. inversion F as [|? ? Nb Fs]; subst.
  apply nstruct in Nb as [D N]. cbn [t_loop]. rewrite t_step_plain by auto.
  unfold t_step_mode. cbn [t_mode]. destruct N as (_ & R & _). rewrite (eqb_ne _ _ R). cbn [rbind]. auto.
Qed.

Lemma column_gap s : forall prev tk tv stk r c e,
  Forall (fun x => ~ structural x /\ x <> c_col) s ->
  t_loop prev s (TSt MColumn false tk tv stk r c e) = Ok (TSt MColumn false tk tv stk r c e).
Proof.
  induction s as [|b s IH]; intros * F; [reflexivity|]. inversion F as [|? ? [Nb Nc] Fs]; subst.
  apply nstruct in Nb as [D N]. cbn [t_loop]. rewrite t_step_plain by auto.
  unfold t_step_mode. cbn [t_mode]. rewrite (eqb_ne _ _ Nc). cbn [rbind]. auto.
Qed.

Lemma next_gap s : forall prev tk tv stk r c e,
  blanks s ->
  t_loop prev s (TSt MNext false tk tv stk r c e) = Ok (TSt MNext false tk tv stk r c e).
Proof.
  induction s as [|b s IH]; intros * F; [reflexivity|]. inversion F as [|? ? Bb Fs]; subst.
  destruct (blank_nstruct _ Bb) as [Nb _]. apply nstruct in Nb as [D N].
  cbn [t_loop]. rewrite t_step_plain by auto.
  assert (t_step_mode false b (TSt MNext false tk tv stk r c e) = Ok (TSt MNext false tk tv stk r c e)) as ->.
  { destruct Bb as [->|[->|[->| ->]]]; reflexivity. }
  cbn [rbind]. auto.
Qed.

Lemma value_bytes s : forall prev tk tv stk r c e,
  Forall (fun x => ~ structural x /\ x <> c_com) s ->
  t_loop prev s (TSt MValue false tk tv stk r c e) = Ok (TSt MValue false tk (tv ++ latin1 s) stk r c e).
Proof.
  induction s as [|b s IH]; intros * F.
  - cbn. now rewrite app_nil_r.
  - inversion F as [|? ? [Nb Nc] Fs]; subst.
    apply nstruct in Nb as [D N]. cbn [t_loop]. rewrite t_step_plain by auto.
    unfold t_step_mode. cbn [t_mode andb t_set_mode t_ps negb].
    destruct N as (N1 & N2 & N3 & N4). rewrite !eqb_ne by auto. cbn [rbind].
    unfold t_add_val. cbn. rewrite IH by auto. cbn [latin1 flat_map]. now rewrite <- app_assoc.
Qed.

(** An unquoted scalar with the blanks before and after it. *)
Lemma token_run t pre post prev tk stk r c e :
  blanks pre -> token_ok false t -> blanks post ->
  exists md tv, (md = MNext \/ md = MValue) /\ (tv = latin1 (t ++ post) \/ (t = [] /\ tv = []))
  /\ t_loop prev (pre ++ t ++ post) (TSt MNext false tk [] stk r c e) = Ok (TSt md false tk tv stk r c e).
Proof.
  intros Bpre [F H] Bpost. destruct t as [|x t].
  - exists MNext, []. split; [auto|]. split; [auto|]. cbn [app].
    apply next_gap. unfold blanks in *. apply Forall_app; auto.
  - exists MValue, (latin1 ((x :: t) ++ post)). split; [auto|]. split; [auto|].
    rewrite (t_loop_ok pre _ _ _ _ (next_gap pre _ _ _ _ _ _ _ Bpre)).
    cbn [app t_loop]. inversion F as [|? ? [Nb Nc] Fs]; subst.
    pose proof Nb as Nb'. apply nstruct in Nb' as [D (N1 & N2 & N3 & N4)].
    rewrite t_step_plain by (auto; repeat split; auto).
    assert (E : t_step_mode false x (TSt MNext false tk [] stk r c e)
                = Ok (TSt MValue false tk (utf8_of_byte x) stk r c e)).
    { unfold t_step_mode. cbn [t_mode]. destruct H as [Hb Hs].
      assert (x <> c_sp /\ x <> c_nl /\ x <> c_cr /\ x <> c_tab) as (S1 & S2 & S3 & S4).
      { unfold blank in Hb. repeat split; intros ->; tauto. }
      rewrite (eqb_ne _ _ S1), (eqb_ne _ _ S2), (eqb_ne _ _ S3), (eqb_ne _ _ S4), (eqb_ne _ _ Hs).
      cbn [orb andb t_set_mode t_ps negb t_tk t_tv t_stk t_root t_cnt t_errs].
      rewrite !eqb_ne by auto. reflexivity. }
    rewrite E. cbn [rbind]. rewrite value_bytes.
    + reflexivity.
    + apply Forall_app; split; [auto|]. eapply Forall_impl; [|apply Bpost].
      intros y By. split; [now apply blank_nstruct|]. destruct By as [->|[->|[->| ->]]]; discriminate.
Qed.

(** ** Quoted bodies *)
Fixpoint body_from (pb : bool) (b : str) : Prop :=
  match b with
  | [] => pb = false
  | x :: t => (x = c_dq -> pb = true) /\ body_from (Ascii.eqb x c_bs) t
  end.

Lemma body_from_ok b : body_ok b -> body_from false b.
Proof.
  intros [H1 H2].
  assert (G : forall b u, (forall u' v, u ++ b = u' ++ c_dq :: v -> exists w, u' = w ++ [c_bs]) ->
              (forall u', u ++ b <> u' ++ [c_bs]) ->
              body_from (match rev u with x :: _ => Ascii.eqb x c_bs | [] => false end) b).
  { clear. induction b as [|x b IH]; intros u H1 H2; cbn [body_from].
    - destruct (list_last_case u) as [->|(l & x & ->)]; [reflexivity|].
      rewrite rev_app_distr. cbn. destruct (Ascii.eqb_spec x c_bs); auto. subst.
      exfalso. apply (H2 l). now rewrite app_nil_r.
    - split.
      + intros ->. destruct (H1 u b eq_refl) as [w ->]. rewrite rev_app_distr. reflexivity.
      + specialize (IH (u ++ [x])). rewrite rev_app_distr in IH. cbn in IH. apply IH.
        * intros u' v E. apply (H1 u' v). rewrite <- E. now rewrite <- app_assoc.
        * intros u' E. apply (H2 u'). rewrite <- E. now rewrite <- app_assoc. }
  apply (G b []); auto.
Qed.

Definition prev_bs (p : option ascii) : bool := match p with Some x => Ascii.eqb x c_bs | None => false end.

Lemma prev_bs_no p : p <> Some c_bs -> prev_bs p = false.
Proof. destruct p as [x|]; cbn; auto. destruct (Ascii.eqb_spec x c_bs); congruence. Qed.

(** Inside a string of a value. *)
Lemma string_bytes b : forall prev tk tv stk r c e,
  body_from (prev_bs prev) b ->
  t_loop prev b (TSt MValue true tk tv stk r c e) = Ok (TSt MValue true tk (tv ++ latin1 b) stk r c e)
  /\ lastp prev b <> Some c_bs.
Proof.
  induction b as [|x b IH]; intros * F.
  - cbn in F |- *. rewrite app_nil_r. split; auto. intros ->. cbn in F. discriminate.
  - destruct F as [Q F]. cbn [t_loop lastp].
    assert (E : t_step prev x (TSt MValue true tk tv stk r c e)
                = Ok (TSt MValue true tk (tv ++ utf8_of_byte x) stk r c e)).
    { unfold t_step. cbn [t_ps negb].
      replace (Ascii.eqb x c_dq && match prev with Some p => negb (Ascii.eqb p c_bs) | None => true end)
        with false.
      - reflexivity.
      - symmetry. destruct (Ascii.eqb_spec x c_dq) as [E|E]; [|reflexivity].
        specialize (Q E). destruct prev as [p|]; cbn in Q |- *; [now rewrite Q | discriminate]. }
    rewrite E. cbn [rbind]. destruct (IH (Some x) tk (tv ++ utf8_of_byte x) stk r c e F) as [A B].
    rewrite A. split; auto. cbn [latin1 flat_map]. now rewrite <- app_assoc.
Qed.

Lemma key_bytes b : forall prev tk tv stk r c e,
  body_from (prev_bs prev) b ->
  t_loop prev b (TSt MKeyName true tk tv stk r c e) = Ok (TSt MKeyName true (tk ++ latin1 b) tv stk r c e)
  /\ lastp prev b <> Some c_bs.
Proof.
  induction b as [|x b IH]; intros * F.
  - cbn in F |- *. rewrite app_nil_r. split; auto. intros ->. cbn in F. discriminate.
  - destruct F as [Q F]. cbn [t_loop lastp].
    assert (E : t_step prev x (TSt MKeyName true tk tv stk r c e)
                = Ok (TSt MKeyName true (tk ++ utf8_of_byte x) tv stk r c e)).
    { unfold t_step. cbn [t_ps negb].
      replace (Ascii.eqb x c_dq && match prev with Some p => negb (Ascii.eqb p c_bs) | None => true end)
        with false.
      - reflexivity.
      - symmetry. destruct (Ascii.eqb_spec x c_dq) as [E|E]; [|reflexivity].
        specialize (Q E). destruct prev as [p|]; cbn in Q |- *; [now rewrite Q | discriminate]. }
    rewrite E. cbn [rbind]. destruct (IH (Some x) (tk ++ utf8_of_byte x) tv stk r c e F) as [A B].
    rewrite A. split; auto. cbn [latin1 flat_map]. now rewrite <- app_assoc.
Qed.

(** ** One key *)
Lemma key_run k prev stk r c e :
  prev <> Some c_bs -> body_ok k ->
  t_loop prev (quoted k) (TSt MKeys false [] [] stk r c e)
  = Ok (TSt MColumn false (quoted (latin1 k)) [] stk r (count_close (count_open c)) e).
Proof.
  intros P B. unfold quoted at 1. cbn [t_loop].
  assert (E : t_step prev c_dq (TSt MKeys false [] [] stk r c e)
              = Ok (TSt MKeyName true [c_dq] [] stk r (count_open c) e)).
  { unfold t_step. cbn [t_ps negb]. rewrite ascii_eqb_refl. cbn [andb].
    replace (match prev with Some p => negb (Ascii.eqb p c_bs) | None => true end) with true; [reflexivity|].
    symmetry. destruct prev as [p|]; auto. rewrite eqb_ne; auto. congruence. }
  rewrite E. cbn [rbind].
  destruct (key_bytes k (Some c_dq) [c_dq] [] stk r (count_open c) e) as [A L].
  { apply body_from_ok, B. }
  rewrite (t_loop_ok k _ _ _ _ A). cbn [t_loop].
  assert (Q : Ascii.eqb c_dq c_dq && match lastp (Some c_dq) k with Some p => negb (Ascii.eqb p c_bs) | None => true end = true).
  { rewrite ascii_eqb_refl. cbn [andb]. destruct (lastp (Some c_dq) k) as [p|]; auto.
    rewrite eqb_ne; auto. congruence. }
  unfold t_step. rewrite Q. reflexivity.
Qed.

(** ** Values *)

(** What the loop stores under [tk] in frame [f]. *)
Definition key_fits (f : frame) (k tk : str) : Prop :=
  if is_fmap f then tk = quoted (latin1 k) /\ body_ok k else tk = [].

Lemma body_last k : body_ok k -> last (latin1 k) c_dq <> c_bs.
Proof. intros [_ H]. now apply latin1_last. Qed.

Lemma value_key f k tk v :
  key_fits f k tk ->
  exists k', value_text (is_fmap f) tk v =
    (ve <-r (if contains_byte c_dq (clean v) then
            if is_quoted (clean v) then
              match slice_inner (clean v) with Some v' => Ok (true, v', []) | None => Panic end
            else Ok (false, clean v, [EValQuote])
          else Ok (false, clean v, [])) ;;
     match snd ve with
     | (_ :: _) as e => Ok (GErr e)
     | [] => if fst (fst ve) then Ok (GVal (k', PScal (SStr (snd (fst ve)))))
             else Ok (match scalar_token (snd (fst ve)) with GVal p => GVal (k', p) | GErr e => GErr e end)
     end)
  /\ (is_fmap f = true -> k' = unescape (latin1 k)).
Proof.
  unfold key_fits. destruct (is_fmap f) eqn:E.
  - intros [-> B]. exists (unescape (latin1 k)). split; auto.
    unfold value_text. rewrite (clean_quoted (latin1 k)) by now apply body_last.
    rewrite is_quoted_quoted, slice_quoted. cbn [rbind fst snd app]. now rewrite unescape_unesc.
  - intros ->. exists (clean []). split; [reflexivity|discriminate].
Qed.

Lemma put_key f k k' od : (is_fmap f = true -> k' = k) -> put_doc k' od f = put_doc k od f.
Proof. destruct f; cbn; intros H; destruct od; auto. now rewrite H. Qed.

Lemma value_string f a k tk b stk :
  key_fits f k tk -> body_ok b ->
  t_value tk (quoted (latin1 b)) ((f, a) :: stk)
  = Ok ((put_doc (unescape (latin1 k)) (Some (DScal (SStr (unescape (latin1 b))))) f, a) :: stk, []).
Proof.
  intros K B. unfold t_value.
  destruct (value_key f k tk (quoted (latin1 b)) K) as (k' & E & Ek). rewrite E.
  rewrite (clean_quoted (latin1 b)) by now apply body_last.
  rewrite contains_quoted, is_quoted_quoted, slice_quoted. cbn [rbind fst snd doc_of put_top].
  rewrite (put_key f _ _ _ Ek). now rewrite (unescape_unesc (latin1 b)).
Qed.

(** How the model reads the text of an unquoted scalar. *)
Definition tok_model (tv : str) : tokres :=
  match scalar_token (clean tv) with
  | GVal p => match doc_of p with Some d => TokDoc d | None => TokNone end
  | GErr e => TokErr e
  end.

Lemma clean_no_dq s : ~ In c_dq s -> ~ In c_dq (clean s).
Proof.
  intros H I. assert (~ In c_dq (trim_space s)).
  { intros J. apply H. clear -J. unfold trim_space in J. rewrite <- in_rev in J.
    assert (T1 : forall n s x, length s <= n -> In x (trim_left s) -> In x s).
    { clear. induction n as [|n IH]; intros s x L J.
      - destruct s; [exact J | cbn in L; lia].
      - destruct s as [|p t]; [exact J|]. cbn [trim_left] in J. cbn [length] in L.
        destruct (is_space1 p); [right; apply IH; [lia|auto]|].
        destruct t as [|q t2]; [exact J|]. cbn [length] in L.
        destruct (is_space2 p q); [right; right; apply IH; [lia|auto]|].
        destruct t2 as [|u t3]; [exact J|]. cbn [length] in L.
        destruct (is_space3 p q u); [right; right; right; apply IH; [lia|auto]|exact J]. }
    assert (T2 : forall n s x, length s <= n -> In x (trim_right_rev s) -> In x s).
    { clear. induction n as [|n IH]; intros s x L J.
      - destruct s; [exact J | cbn in L; lia].
      - destruct s as [|p t]; [exact J|]. cbn [trim_right_rev] in J. cbn [length] in L.
        destruct (is_space1 p); [right; apply IH; [lia|auto]|].
        destruct t as [|q t2]; [exact J|]. cbn [length] in L.
        destruct (is_space2 q p); [right; right; apply IH; [lia|auto]|].
        destruct t2 as [|u t3]; [exact J|]. cbn [length] in L.
        destruct (is_space3 u q p); [right; right; right; apply IH; [lia|auto]|exact J]. }
    apply (T2 _ _ _ (le_n _)) in J. rewrite <- in_rev in J. now apply (T1 _ _ _ (le_n _)) in J. }
  unfold clean in I. fold (unesc (trim_space s)) in I.
  assert (U : forall n s x, length s <= n -> ~ In c_dq s -> In x (unesc s) -> In x s).
  { clear. induction n as [|n IH]; intros s x L N J.
    - destruct s; [exact J | cbn in L; lia].
    - destruct s as [|p t]; [exact J|]. rewrite unesc_cons in J. cbn [length] in L.
      destruct t as [|q t2]; [exact J|].
      destruct (Ascii.eqb p c_bs && Ascii.eqb q c_dq) eqn:E.
      + apply andb_true_iff in E as [_ E]. apply Ascii.eqb_eq in E. exfalso. apply N. right; left; auto.
      + destruct J as [J|J]; [now left|]. right. apply IH; auto; [lia|]. intros K. apply N. now right. }
  apply (U _ _ _ (le_n _) H0) in I. auto.
Qed.

Lemma value_token f a k tk tv stk :
  key_fits f k tk -> ~ In c_dq tv ->
  t_value tk tv ((f, a) :: stk)
  = Ok (match tok_model tv with
        | TokNone => ((f, a) :: stk, [])
        | TokDoc d => ((put_doc (unescape (latin1 k)) (Some d) f, a) :: stk, [])
        | TokErr e => ((f, a) :: stk, e)
        end).
Proof.
  intros K N. unfold t_value.
  destruct (value_key f k tk tv K) as (k' & E & Ek). rewrite E.
  apply clean_no_dq in N. destruct (contains_byte c_dq (clean tv)) eqn:C.
  { apply contains_byte_In in C. tauto. }
  cbn [rbind fst snd]. unfold tok_model. destruct (scalar_token (clean tv)) as [p|er]; [|reflexivity].
  cbn [rbind put_top]. destruct (doc_of p) eqn:D.
  - now rewrite (put_key f _ _ _ Ek).
  - reflexivity.
Qed.

(** A quoted value. *)
Lemma string_run f a k tk b prev stk r c e :
  prev <> Some c_bs -> key_fits f k tk -> body_ok b ->
  t_loop prev (quoted b) (TSt MNext false tk [] ((f, a) :: stk) r c e)
  = Ok (TSt (if is_fmap f then MKeys else MNext) false [] []
          ((put_doc (unescape (latin1 k)) (Some (DScal (SStr (unescape (latin1 b))))) f, a) :: stk) r
          (count_close (count_open c)) e).
Proof.
  intros P K B. unfold quoted at 1. cbn [t_loop].
  assert (E : t_step prev c_dq (TSt MNext false tk [] ((f, a) :: stk) r c e)
              = Ok (TSt MValue true tk [c_dq] ((f, a) :: stk) r (count_open c) e)).
  { unfold t_step. cbn [t_ps negb]. rewrite ascii_eqb_refl. cbn [andb].
    replace (match prev with Some p => negb (Ascii.eqb p c_bs) | None => true end) with true; [reflexivity|].
    symmetry. destruct prev as [p|]; auto. rewrite eqb_ne; auto. congruence. }
  rewrite E. cbn [rbind].
  destruct (string_bytes b (Some c_dq) tk [c_dq] ((f, a) :: stk) r (count_open c) e) as [A L].
  { apply body_from_ok, B. }
  rewrite (t_loop_ok b _ _ _ _ A). cbn [t_loop].
  assert (Q : Ascii.eqb c_dq c_dq && match lastp (Some c_dq) b with Some p => negb (Ascii.eqb p c_bs) | None => true end = true).
  { rewrite ascii_eqb_refl. cbn [andb]. destruct (lastp (Some c_dq) b) as [p|]; auto.
    rewrite eqb_ne; auto. congruence. }
  unfold t_step. rewrite Q. cbn [t_ps negb t_mode t_set_ps t_cnt t_tk t_tv t_stk t_root t_errs].
  unfold t_end, t_add_val, t_set_ps. cbn [t_ps t_mode t_cnt t_tk t_tv t_stk t_root t_errs].
  match goal with |- context [t_value tk ?v _] => change v with (quoted (latin1 b)) end.
  rewrite (value_string f a k tk b stk K B). cbn [rbind fst snd t_next].
  rewrite app_nil_r. repeat f_equal. now destruct f.
Qed.

(** ** Containers *)

Lemma open_map_run f a k tk stk r c e prev :
  key_fits f k tk -> r <> RNone ->
  t_step prev c_lb (TSt MNext false tk [] ((f, a) :: stk) r c e)
  = Ok (TSt MKeys false [] [] ((FMap [], if is_fmap f then AKey (latin1 k) else AElem) :: (f, a) :: stk) r
          (count_bracket c_lb c) e).
Proof.
  intros K R. unfold t_step. cbn [t_ps negb]. change (Ascii.eqb c_lb c_dq) with false. cbn [andb].
  unfold t_step_mode. cbn [t_mode t_set_ps andb t_cnt t_tk t_tv t_stk t_root t_errs].
  change (Ascii.eqb c_lb c_sp || Ascii.eqb c_lb c_nl || Ascii.eqb c_lb c_cr || Ascii.eqb c_lb c_bs || Ascii.eqb c_lb c_tab) with false.
  cbn [t_set_mode t_ps negb]. rewrite ascii_eqb_refl.
  unfold t_open_map, t_set_ps, t_set_mode. cbn [t_tk t_stk t_ps t_root t_cnt t_errs t_set_mode].
  unfold t_attach, key_fits in *. destruct (is_fmap f) eqn:E.
  - destruct K as [-> B]. unfold unquote_key. rewrite is_quoted_quoted, slice_quoted. cbn [rbind fst snd].
    rewrite app_nil_r. destruct r; [congruence|reflexivity|reflexivity].
  - cbn [rbind fst snd]. rewrite app_nil_r. destruct r; [congruence|reflexivity|reflexivity].
Qed.

Lemma open_array_run f a k tk stk r c e prev :
  key_fits f k tk ->
  t_step prev c_ls (TSt MNext false tk [] ((f, a) :: stk) r c e)
  = Ok (TSt MNext false [] [] ((FArr [], if is_fmap f then AKey (latin1 k) else AElem) :: (f, a) :: stk) r
          (count_bracket c_ls c) e).
Proof.
  intros K. unfold t_step. cbn [t_ps negb]. change (Ascii.eqb c_ls c_dq) with false. cbn [andb].
  unfold t_step_mode. cbn [t_mode t_set_ps andb t_cnt t_tk t_tv t_stk t_root t_errs].
  change (Ascii.eqb c_ls c_sp || Ascii.eqb c_ls c_nl || Ascii.eqb c_ls c_cr || Ascii.eqb c_ls c_bs || Ascii.eqb c_ls c_tab) with false.
  cbn [t_set_mode t_ps negb]. change (Ascii.eqb c_ls c_lb) with false. change (Ascii.eqb c_ls c_rb) with false.
  rewrite ascii_eqb_refl.
  unfold t_open_array, t_set_ps, t_set_mode. cbn [t_tk t_stk t_ps t_root t_cnt t_errs t_set_mode].
  unfold t_attach, key_fits in *. destruct (is_fmap f) eqn:E.
  - destruct K as [-> B]. unfold unquote_key. rewrite is_quoted_quoted, slice_quoted. cbn [rbind fst snd].
    rewrite app_nil_r. reflexivity.
  - cbn [rbind fst snd]. rewrite app_nil_r. reflexivity.
Qed.

(** Ending a value with a comma or a closing bracket. *)
Lemma end_step b pop md prev tk tv stk r c e :
  md = MNext \/ md = MValue ->
  (b = c_com /\ pop = false) \/ ((b = c_rb \/ b = c_rs) /\ pop = true) ->
  t_step prev b (TSt md false tk tv stk r c e)
  = t_end pop (TSt MValue false tk tv stk r (count_bracket b c) e).
Proof.
  intros M B. unfold t_step. cbn [t_ps negb].
  destruct M as [->| ->]; destruct B as [[-> ->]|[[->| ->] ->]]; reflexivity.
Qed.

Lemma close_keys_step prev stk r c e :
  t_step prev c_rb (TSt MKeys false [] [] stk r c e)
  = t_close_keys (TSt MKeys false [] [] stk r (count_bracket c_rb c) e).
Proof. reflexivity. Qed.

(** ** All texts *)

Scheme jtext_mut := Induction for jtext Sort Prop
  with jelems_mut := Induction for jelems Sort Prop
  with jmembers_mut := Induction for jmembers Sort Prop.
Combined Scheme jtext_combined from jtext_mut, jelems_mut, jmembers_mut.

Section Run.
  Context (T : str -> tokres).

  Lemma value_of_JTok t : value_of T (JTok t) = match T t with
                | TokNone => (None, []) | TokDoc d => (Some d, []) | TokErr e => (None, e) end.
  Proof. reflexivity. Qed.
  Lemma value_of_JArr l : value_of T (JArr l) = let (ds, e) := elems_of T l in (Some (DArr ds), e).
  Proof. reflexivity. Qed.
  Lemma value_of_JMap l : value_of T (JMap l) = let (ms, e) := members_of T [] l in (Some (DMap ms), e).
  Proof. reflexivity. Qed.
  Lemma elems_of_ECons pre v post comma rest :
    elems_of T (ECons pre v post comma rest) =
    let (d, e) := value_of T v in
    let (ds, e') := elems_of T rest in
    (match d with Some x => x :: ds | None => ds end, e ++ e').
  Proof. reflexivity. Qed.
  Lemma members_of_MCons ms pre k mid pre2 v post comma rest :
    members_of T ms (MCons pre k mid pre2 v post comma rest) =
    let (d, e) := value_of T v in
    let (ms', e') := members_of T (match d with Some x => dict_set ms (key_of k v) x | None => ms end) rest in
    (ms', e ++ e').
  Proof. reflexivity. Qed.

  (** [T] agrees with the model on the token [t]. *)
  Definition tok_agrees (t : str) : Prop :=
    forall post, blanks post -> tok_model (latin1 (t ++ post)) = T t.

  Definition after (f : frame) : pmode := if is_fmap f then MKeys else MNext.

  (** Closing the frame [f], with errors [e]. *)
  Definition closed (b : ascii) (f : frame) (a : att) (stk : list (frame * att)) (r : root)
    (e : list err) (c : counts) (prev : option ascii) (s : str) (st : tst) : Prop :=
    exists md c',
      t_loop prev (s ++ [b]) st
      = (l <-r t_pop ((f, a) :: stk) r ;;
         Ok (TSt (t_next md (fst l)) false [] [] (fst l) (snd l) c' e))
      /\ cbal (count_bracket b c) c'.

  Definition P_text (v : jtext) : Prop :=
    forall f a k tk prev stk r c e,
      text_ok false v -> Forall tok_agrees (tokens v) -> is_token v = false ->
      prev <> Some c_bs -> key_fits f k tk -> r <> RNone ->
      exists c', cbal c c' /\ lastp prev (text_of v) <> Some c_bs /\
      exists d er, value_of T v = (Some d, er) /\
      t_loop prev (text_of v) (TSt MNext false tk [] ((f, a) :: stk) r c e)
      = Ok (TSt (after f) false [] [] ((put_doc (key_of k v) (Some d) f, a) :: stk) r c' (e ++ er)).

  Definition P_elems (l : jelems) : Prop :=
    forall ds a prev stk r c e,
      elems_ok false l -> Forall tok_agrees (tokens_elems l) -> prev <> Some c_bs -> r <> RNone ->
      forall ds' er, elems_of T l = (ds', er) ->
      closed c_rs (FArr (ds ++ ds')) a stk r (e ++ er) c prev (text_elems l)
        (TSt MNext false [] [] ((FArr ds, a) :: stk) r c e).

  Definition P_members (l : jmembers) : Prop :=
    forall es a prev stk r c e,
      members_ok false l -> Forall tok_agrees (tokens_members l) -> prev <> Some c_bs -> r <> RNone ->
      forall es' er, members_of T es l = (es', er) ->
      closed c_rb (FMap es') a stk r (e ++ er) c prev (text_members l)
        (TSt MKeys false [] [] ((FMap es, a) :: stk) r c e).

  Lemma put_closed f k d :
    att_put (if is_fmap f then AKey (latin1 k) else AElem) d f = put_doc (latin1 k) (Some d) f.
  Proof. destruct f; reflexivity. Qed.

  Lemma count_q c : cbal c (count_close (count_open c)).
  Proof. unfold cbal, count_close, count_open; cbn; lia. Qed.

  Lemma run_JArr l : P_elems l -> P_text (JArr l).
  Proof.
    intros IH f a k tk prev stk r c e OK TK _ NB K R. cbn [text_ok tokens] in OK, TK.
    cbn [key_of text_of]. rewrite value_of_JArr. destruct (elems_of T l) as [ds er] eqn:E.
    destruct (IH [] (if is_fmap f then AKey (latin1 k) else AElem) (Some c_ls) ((f, a) :: stk) r
                (count_bracket c_ls c) e OK TK ltac:(discriminate) R ds er E) as (md & c' & Lp & Cb).
    exists c'. split.
    { unfold cbal, count_bracket in *; cbn in *; lia. }
    split.
    { cbn [app]. rewrite app_comm_cons. now rewrite lastp_snoc. }
    exists (DArr ds), er. split; auto.
    change ([c_ls] ++ text_elems l ++ [c_rs]) with (c_ls :: (text_elems l ++ [c_rs])). cbn [t_loop].
    rewrite (open_array_run f a k tk) by auto. cbn [rbind]. rewrite Lp. cbn [t_pop rbind fst snd app].
    rewrite put_closed. unfold t_next, after, close. repeat f_equal. now destruct f.
  Qed.

  Lemma run_JMap l : P_members l -> P_text (JMap l).
  Proof.
    intros IH f a k tk prev stk r c e OK TK _ NB K R. cbn [text_ok tokens] in OK, TK.
    cbn [key_of text_of]. rewrite value_of_JMap. destruct (members_of T [] l) as [ds er] eqn:E.
    destruct (IH [] (if is_fmap f then AKey (latin1 k) else AElem) (Some c_lb) ((f, a) :: stk) r
                (count_bracket c_lb c) e OK TK ltac:(discriminate) R ds er E) as (md & c' & Lp & Cb).
    exists c'. split.
    { unfold cbal, count_bracket in *; cbn in *; lia. }
    split.
    { cbn [app]. rewrite app_comm_cons. now rewrite lastp_snoc. }
    exists (DMap ds), er. split; auto.
    change ([c_lb] ++ text_members l ++ [c_rb]) with (c_lb :: (text_members l ++ [c_rb])). cbn [t_loop].
    rewrite (open_map_run f a k tk) by auto. cbn [rbind]. rewrite Lp. cbn [t_pop rbind fst snd app].
    rewrite put_closed. unfold t_next, after, close. repeat f_equal. now destruct f.
  Qed.

  Lemma run_JStr b : P_text (JStr b).
  Proof.
    intros f a k tk prev stk r c e OK TK _ NB K R. cbn [text_ok] in OK.
    exists (count_close (count_open c)). split; [apply count_q|]. split.
    { cbn [text_of app]. rewrite app_comm_cons. now rewrite lastp_snoc. }
    eexists _, []. split; [reflexivity|]. cbn [text_of key_of].
    change ([c_dq] ++ b ++ [c_dq]) with (quoted b).
    rewrite (string_run f a k tk b) by auto. rewrite app_nil_r. reflexivity.
  Qed.

  (** The byte before what follows a value. *)
  Lemma nbs_blanks prev s : prev <> Some c_bs -> blanks s -> lastp prev s <> Some c_bs.
  Proof. intros H F. apply lastp_nbs; auto. eapply Forall_impl; [|apply F]. intros x B. now apply blank_nstruct. Qed.

  Lemma nbs_gap prev s : prev <> Some c_bs -> gap false s -> lastp prev s <> Some c_bs.
  Proof. intros H F. apply lastp_nbs; auto. eapply Forall_impl; [|apply F]. now intros x [_ B]. Qed.

  Lemma gap_keys s : gap false s -> Forall (fun x => ~ structural x) s.
  Proof. intros F. eapply Forall_impl; [|apply F]. now intros x [B _]. Qed.

  Lemma next_comma prev ds a stk r c e :
    t_loop prev [c_com] (TSt MNext false [] [] ((FArr ds, a) :: stk) r c e)
    = Ok (TSt MNext false [] [] ((FArr ds, a) :: stk) r c e).
  Proof.
    cbn [t_loop]. rewrite (end_step c_com false) by auto. unfold t_end.
    cbn [t_tk t_tv t_stk t_root t_mode t_cnt t_errs t_ps].
    assert (t_value [] [] ((FArr ds, a) :: stk) = Ok ((FArr ds, a) :: stk, [])) as -> by reflexivity.
    cbn [rbind fst snd t_next is_fmap]. now rewrite app_nil_r.
  Qed.

  Lemma next_sep prev ds a stk r c e b :
    t_loop prev (opt_comma b) (TSt MNext false [] [] ((FArr ds, a) :: stk) r c e)
    = Ok (TSt MNext false [] [] ((FArr ds, a) :: stk) r c e).
  Proof. destruct b; [apply next_comma | reflexivity]. Qed.

  Lemma keys_sep prev stk r c e b :
    t_loop prev (opt_comma b) (TSt MKeys false [] [] stk r c e)
    = Ok (TSt MKeys false [] [] stk r c e).
  Proof. destruct b; reflexivity. Qed.

  Lemma sep_nbs prev b : prev <> Some c_bs -> lastp prev (opt_comma b) <> Some c_bs.
  Proof. destruct b; cbn; auto; discriminate. Qed.

  Lemma token_no_dq t post : token_ok false t -> blanks post -> ~ In c_dq (latin1 (t ++ post)).
  Proof.
    intros [F _] B I. apply latin1_In in I; [|reflexivity]. apply in_app_or in I as [I|I].
    - rewrite Forall_forall in F. apply F in I as [I _]. apply I. now left.
    - unfold blanks in B. rewrite Forall_forall in B. apply B in I. apply blank_nstruct in I as [I _]. apply I. now left.
  Qed.

  (** The scalar is read the same whatever blanks follow. *)
  Lemma token_value t post tv :
    tok_agrees t -> token_ok false t -> blanks post ->
    tv = latin1 (t ++ post) \/ (t = [] /\ tv = []) ->
    tok_model tv = T t /\ ~ In c_dq tv.
  Proof.
    intros A OK B [->|[-> ->]].
    - split; [now apply A | now apply token_no_dq].
    - split; [|auto]. rewrite <- (A []) by constructor. reflexivity.
  Qed.

  Lemma token_end f a k tk tv t prev stk r c e md b pop :
    key_fits f k tk -> tok_model tv = T t -> ~ In c_dq tv ->
    md = MNext \/ md = MValue ->
    (b = c_com /\ pop = false) \/ ((b = c_rb \/ b = c_rs) /\ pop = true) ->
    t_step prev b (TSt md false tk tv ((f, a) :: stk) r c e)
    = (l <-r (let s := (put_doc (unescape (latin1 k)) (fst (value_of T (JTok t))) f, a) :: stk in
              if pop then t_pop s r else Ok (s, r)) ;;
       Ok (TSt (t_next MValue (fst l)) false [] [] (fst l) (snd l) (count_bracket b c)
             (e ++ snd (value_of T (JTok t))))).
  Proof.
    intros K E N M B. rewrite (end_step b pop) by auto. unfold t_end.
    cbn [t_tk t_tv t_stk t_root t_mode t_cnt t_errs t_ps].
    rewrite (value_token f a k tk tv stk K N), E. rewrite value_of_JTok.
    destruct (T t) as [|d|er]; reflexivity.
  Qed.

  Lemma elem_token t pre post comma rest :
    P_elems rest -> P_elems (ECons pre (JTok t) post comma rest).
  Proof.
    intros IH ds a prev stk r c e OK TK NB R ds' er E.
    cbn [elems_ok text_ok] in OK. destruct OK as (Bpre & Tok & Bpost & C & OKr).
    cbn [tokens_elems tokens app] in TK. inversion TK as [|? ? A TKr]; subst.
    rewrite elems_of_ECons in E. destruct (value_of T (JTok t)) as [od e1] eqn:V.
    destruct (elems_of T rest) as [ds2 e2] eqn:E2.
    inversion E; subst; clear E.
    destruct (token_run t pre post prev [] ((FArr ds, a) :: stk) r c e Bpre Tok Bpost)
      as (md & tv & M & TV & Lp).
    destruct (token_value t post tv A Tok Bpost TV) as [TM ND].
    assert (K : key_fits (FArr ds) [] []) by reflexivity.
    unfold closed. cbn [text_elems text_of].
    cbn [comma_ok is_token] in C. specialize (C eq_refl). destruct comma.
    - destruct (IH (match od with Some x => ds ++ [x] | None => ds end) a (Some c_com) stk r c (e ++ e1) OKr TKr
                  ltac:(discriminate) R ds2 e2 E2) as (md' & c' & Lr & Cb).
      exists md', c'. split; [|exact Cb].
      replace ((pre ++ t ++ post ++ opt_comma true ++ text_elems rest) ++ [c_rs])
        with ((pre ++ t ++ post) ++ c_com :: (text_elems rest ++ [c_rs])) by (rewrite <- !app_assoc; reflexivity).
      rewrite (t_loop_ok _ _ _ _ _ Lp). cbn [t_loop].
      rewrite (token_end (FArr ds) a [] [] tv t _ stk r c e md c_com false) by auto.
      rewrite V. cbn [fst snd rbind]. change (count_bracket c_com c) with c.
      replace (put_doc (unescape (latin1 [])) od (FArr ds)) with (FArr (match od with Some x => ds ++ [x] | None => ds end))
        by now destruct od.
      cbn [t_next is_fmap]. rewrite Lr. destruct od; rewrite <- !app_assoc; reflexivity.
    - destruct C as [C|[_ ->]]; [discriminate|]. cbn [elems_of] in E2. inversion E2; subst; clear E2.
      eexists _, _. split; [|apply cbal_refl].
      replace ((pre ++ t ++ post ++ opt_comma false ++ text_elems (ENil [])) ++ [c_rs])
        with ((pre ++ t ++ post) ++ [c_rs]) by (cbn; rewrite <- !app_assoc; cbn; reflexivity).
      rewrite (t_loop_ok _ _ _ _ _ Lp). cbn [t_loop].
      rewrite (token_end (FArr ds) a [] [] tv t _ stk r c e md c_rs true) by auto.
      rewrite V. cbn [fst snd].
      replace (put_doc (unescape (latin1 [])) od (FArr ds)) with (FArr (ds ++ match od with Some x => [x] | None => [] end))
        by (destruct od; cbn; rewrite ?app_nil_r; reflexivity).
      rewrite app_nil_r. destruct od; destruct (t_pop _ r); reflexivity.
  Qed.

  Lemma elem_other v pre post comma rest :
    is_token v = false -> P_text v -> P_elems rest -> P_elems (ECons pre v post comma rest).
  Proof.
    intros NT IV IH ds a prev stk r c e OK TK NB R ds' er E.
    cbn [elems_ok] in OK. destruct OK as (Bpre & Tok & Bpost & C & OKr). clear C.
    cbn [tokens_elems] in TK. apply Forall_app in TK as [TKv TKr].
    destruct (IV (FArr ds) a [] [] (lastp prev pre) stk r c e Tok TKv NT ltac:(now apply nbs_blanks)
                eq_refl R) as (c1 & Cb1 & Ln & d & e1 & V & Lv).
    rewrite elems_of_ECons in E. rewrite V in E. destruct (elems_of T rest) as [ds2 e2] eqn:E2.
    inversion E; subst; clear E.
    set (p1 := lastp (lastp prev pre) (text_of v)) in *.
    destruct (IH (ds ++ [d]) a (lastp (lastp p1 post) (opt_comma comma)) stk r c1 (e ++ e1) OKr TKr
                ltac:(now apply sep_nbs, nbs_blanks) R ds2 e2 E2) as (md' & c' & Lr & Cb).
    exists md', c'. split.
    - cbn [text_elems].
      replace ((pre ++ text_of v ++ post ++ opt_comma comma ++ text_elems rest) ++ [c_rs])
        with (pre ++ text_of v ++ post ++ opt_comma comma ++ (text_elems rest ++ [c_rs]))
        by (rewrite <- !app_assoc; reflexivity).
      rewrite (t_loop_ok pre _ _ _ _ (next_gap pre _ _ _ _ _ _ _ Bpre)).
      rewrite (t_loop_ok (text_of v) _ _ _ _ Lv). fold p1.
      replace (put_doc (key_of [] v) (Some d) (FArr ds)) with (FArr (ds ++ [d])) by reflexivity.
      cbn [after is_fmap].
      rewrite (t_loop_ok post _ _ _ _ (next_gap post _ _ _ _ _ _ _ Bpost)).
      rewrite (t_loop_ok (opt_comma comma) _ _ _ _ (next_sep _ _ _ _ _ _ _ comma)).
      rewrite Lr. rewrite <- !app_assoc. reflexivity.
    - eapply cbal_trans; [|exact Cb]. unfold cbal, count_bracket in *; cbn; lia.
  Qed.

  Lemma elems_nil b : P_elems (ENil b).
  Proof.
    intros ds a prev stk r c e OK TK NB R ds' er E. cbn [elems_ok elems_of] in *. inversion E; subst; clear E.
    eexists _, _. split; [|apply cbal_refl]. cbn [text_elems].
    rewrite (t_loop_ok b _ _ _ _ (next_gap b _ _ _ _ _ _ _ OK)). cbn [t_loop].
    rewrite (end_step c_rs true) by auto. unfold t_end.
    cbn [t_tk t_tv t_stk t_root t_mode t_cnt t_errs t_ps].
    assert (t_value [] [] ((FArr ds, a) :: stk) = Ok ((FArr ds, a) :: stk, [])) as -> by reflexivity.
    cbn [rbind fst snd]. rewrite !app_nil_r.
    destruct (t_pop ((FArr ds, a) :: stk) r); reflexivity.
  Qed.

  Lemma members_nil b : P_members (MNil b).
  Proof.
    intros es a prev stk r c e OK TK NB R es' er E. cbn [members_ok members_of] in *. inversion E; subst; clear E.
    eexists _, _. split; [|apply cbal_refl]. cbn [text_members].
    rewrite (t_loop_ok b _ _ _ _ (keys_gap b _ _ _ _ _ _ _ (gap_keys b OK))). cbn [t_loop].
    rewrite close_keys_step. unfold t_close_keys. cbn [t_tk t_tv t_stk t_root t_mode t_cnt t_errs t_ps].
    rewrite app_nil_r. destruct (t_pop ((FMap es', a) :: stk) r); reflexivity.
  Qed.

  (** From the keys to the value. *)
  Lemma member_head pre k mid prev stk r c e :
    gap false pre -> body_ok k -> gap_colon false mid -> prev <> Some c_bs ->
    t_loop prev (pre ++ quoted k ++ mid ++ [c_col]) (TSt MKeys false [] [] stk r c e)
    = Ok (TSt MNext false (quoted (latin1 k)) [] stk r (count_close (count_open c)) e).
  Proof.
    intros Gp B Gm NB. rewrite (t_loop_ok pre _ _ _ _ (keys_gap pre _ _ _ _ _ _ _ (gap_keys pre Gp))).
    rewrite (t_loop_ok (quoted k) _ _ _ _ (key_run k _ _ _ _ _ (nbs_gap _ _ NB Gp) B)).
    rewrite (t_loop_ok mid _ _ _ _ (column_gap mid _ _ _ _ _ _ _ ltac:(
      eapply Forall_impl; [|apply Gm]; now intros x (H1 & H2 & H3)))).
    reflexivity.
  Qed.

  Lemma member_token k t pre mid pre2 post comma rest :
    P_members rest -> P_members (MCons pre k mid pre2 (JTok t) post comma rest).
  Proof.
    intros IH es a prev stk r c e OK TK NB R es' er E.
    cbn [members_ok text_ok is_token] in OK. destruct OK as (Gpre & Bk & Gmid & Bpre2 & Tok & Bpost & C & OKr).
    cbn [tokens_members tokens app] in TK. inversion TK as [|? ? A TKr]; subst.
    rewrite members_of_MCons in E. destruct (value_of T (JTok t)) as [od e1] eqn:V. cbn [key_of] in E.
    pose (es1 := match od with Some x => dict_set es (unescape (latin1 k)) x | None => es end).
    match type of E with context [members_of T ?x rest] => change x with es1 in E end.
    destruct (members_of T es1 rest) as [es2 e2] eqn:E2. inversion E; subst; clear E.
    set (c1 := count_close (count_open c)).
    assert (Cb1 : cbal c c1) by apply count_q.
    destruct (token_run t pre2 post (lastp prev (pre ++ quoted k ++ mid ++ [c_col])) (quoted (latin1 k))
                ((FMap es, a) :: stk) r c1 e Bpre2 Tok Bpost) as (md & tv & M & TV & Lp).
    destruct (token_value t post tv A Tok Bpost TV) as [TM ND].
    assert (K : key_fits (FMap es) k (quoted (latin1 k))) by (split; auto).
    assert (PE : put_doc (unescape (latin1 k)) od (FMap es) = FMap es1) by now destruct od.
    unfold closed. cbn [text_members text_of].
    cbn [comma_ok] in C. specialize (C eq_refl). destruct comma.
    - destruct (IH es1 a (Some c_com) stk r c1 (e ++ e1) OKr TKr ltac:(discriminate) R es' e2 E2)
        as (md' & c' & Lr & Cb).
      exists md', c'. split.
      2: { eapply cbal_trans; [|exact Cb]. unfold cbal, count_bracket in *; cbn in *; lia. }
      replace ((pre ++ ([c_dq] ++ k ++ [c_dq]) ++ mid ++ [c_col] ++ pre2 ++ t ++ post ++ opt_comma true
                 ++ text_members rest) ++ [c_rb])
        with ((pre ++ quoted k ++ mid ++ [c_col]) ++ (pre2 ++ t ++ post) ++ c_com :: (text_members rest ++ [c_rb]))
        by (unfold quoted, opt_comma; cbn [app]; repeat (rewrite <- app_assoc; cbn [app]); reflexivity).
      rewrite (t_loop_ok _ _ _ _ _ (member_head pre k mid prev ((FMap es, a) :: stk) r c e Gpre Bk Gmid NB)).
      fold c1. rewrite (t_loop_ok _ _ _ _ _ Lp). cbn [t_loop].
      rewrite (token_end (FMap es) a k _ tv t _ stk r c1 e md c_com false) by auto.
      rewrite V. cbn [fst snd rbind]. change (count_bracket c_com c1) with c1. rewrite PE.
      cbn [t_next is_fmap]. rewrite Lr. rewrite <- !app_assoc. reflexivity.
    - destruct C as [C|[_ ->]]; [discriminate|]. cbn [members_of] in E2. inversion E2; subst; clear E2.
      eexists _, (count_bracket c_rb c1). split.
      2: { unfold cbal, count_bracket in *; cbn in *; lia. }
      replace ((pre ++ ([c_dq] ++ k ++ [c_dq]) ++ mid ++ [c_col] ++ pre2 ++ t ++ post ++ opt_comma false
                 ++ text_members (MNil [])) ++ [c_rb])
        with ((pre ++ quoted k ++ mid ++ [c_col]) ++ (pre2 ++ t ++ post) ++ [c_rb])
        by (unfold quoted; cbn [app opt_comma text_members]; repeat (rewrite <- app_assoc; cbn [app]); reflexivity).
      rewrite (t_loop_ok _ _ _ _ _ (member_head pre k mid prev ((FMap es, a) :: stk) r c e Gpre Bk Gmid NB)).
      fold c1. rewrite (t_loop_ok _ _ _ _ _ Lp). cbn [t_loop].
      rewrite (token_end (FMap es) a k _ tv t _ stk r c1 e md c_rb true) by auto.
      rewrite V. cbn [fst snd]. rewrite PE. rewrite app_nil_r. subst es1.
      destruct od; destruct (t_pop _ r); reflexivity.
  Qed.

  Lemma member_other k v pre mid pre2 post comma rest :
    is_token v = false -> P_text v -> P_members rest -> P_members (MCons pre k mid pre2 v post comma rest).
  Proof.
    intros NT IV IH es a prev stk r c e OK TK NB R es' er E.
    cbn [members_ok] in OK. rewrite NT in OK. destruct OK as (Gpre & Bk & Gmid & Bpre2 & Tok & Gpost & C & OKr).
    clear C. cbn [tokens_members] in TK. apply Forall_app in TK as [TKv TKr].
    set (c1 := count_close (count_open c)).
    assert (Cb1 : cbal c c1) by apply count_q.
    assert (K : key_fits (FMap es) k (quoted (latin1 k))) by (split; auto).
    set (head := pre ++ quoted k ++ mid ++ [c_col]).
    assert (NBh : lastp prev head <> Some c_bs).
    { unfold head. rewrite !app_assoc. rewrite lastp_snoc. discriminate. }
    destruct (IV (FMap es) a k (quoted (latin1 k)) (lastp (lastp prev head) pre2) stk r c1 e Tok TKv NT
                ltac:(now apply nbs_blanks) K R) as (c2 & Cb2 & Ln & d & e1 & V & Lv).
    rewrite members_of_MCons in E. rewrite V in E. destruct (members_of T (dict_set es (key_of k v) d) rest) as [es2 e2] eqn:E2.
    inversion E; subst; clear E.
    set (p1 := lastp (lastp (lastp prev head) pre2) (text_of v)) in *.
    destruct (IH (dict_set es (key_of k v) d) a (lastp (lastp p1 post) (opt_comma comma)) stk r c2 (e ++ e1) OKr TKr
                ltac:(now apply sep_nbs, nbs_gap) R es' e2 E2) as (md' & c' & Lr & Cb).
    exists md', c'. split.
    - cbn [text_members].
      replace ((pre ++ ([c_dq] ++ k ++ [c_dq]) ++ mid ++ [c_col] ++ pre2 ++ text_of v ++ post ++ opt_comma comma
                 ++ text_members rest) ++ [c_rb])
        with (head ++ pre2 ++ text_of v ++ post ++ opt_comma comma ++ (text_members rest ++ [c_rb]))
        by (unfold head, quoted; cbn [app]; repeat (rewrite <- app_assoc; cbn [app]); reflexivity).
      rewrite (t_loop_ok head _ _ _ _ (member_head pre k mid prev ((FMap es, a) :: stk) r c e Gpre Bk Gmid NB)).
      fold c1. rewrite (t_loop_ok pre2 _ _ _ _ (next_gap pre2 _ _ _ _ _ _ _ Bpre2)).
      rewrite (t_loop_ok (text_of v) _ _ _ _ Lv). fold p1.
      replace (put_doc (key_of k v) (Some d) (FMap es)) with (FMap (dict_set es (key_of k v) d)) by reflexivity.
      cbn [after is_fmap].
      rewrite (t_loop_ok post _ _ _ _ (keys_gap post _ _ _ _ _ _ _ (gap_keys post Gpost))).
      rewrite (t_loop_ok (opt_comma comma) _ _ _ _ (keys_sep _ _ _ _ _ comma)).
      rewrite Lr. rewrite <- !app_assoc. reflexivity.
    - eapply cbal_trans; [|exact Cb]. unfold cbal, count_bracket in *; cbn in *; lia.
  Qed.

  Theorem run_all : (forall v, P_text v) /\ (forall l, P_elems l) /\ (forall l, P_members l).
  Proof.
    apply jtext_combined.
    - intros t f a k tk prev stk r c e _ _ H. discriminate.
    - apply run_JStr.
    - apply run_JArr.
    - apply run_JMap.
    - apply elems_nil.
    - intros pre v IV post comma rest IR. destruct (is_token v) eqn:E.
      + destruct v; try discriminate. now apply elem_token.
      + now apply elem_other.
    - apply members_nil.
    - intros pre k mid pre2 v IV post comma rest IR. destruct (is_token v) eqn:E.
      + destruct v; try discriminate. now apply member_token.
      + now apply member_other.
  Qed.

  Theorem tparse_text l :
    members_ok false l -> Forall tok_agrees (tokens_members l) ->
    tparse (text_of (JMap l)) = Ok (match outcome T l with GVal d => GVal (Some d) | GErr e => GErr e end).
  Proof.
    intros OK TK. unfold tparse, outcome. cbn [text_of].
    assert (pre_errs ([c_lb] ++ text_members l ++ [c_rb]) = []) as ->.
    { unfold pre_errs. cbn [app]. rewrite has_prefix1, ascii_eqb_refl, app_comm_cons, has_suffix1_app, ascii_eqb_refl.
      reflexivity. }
    destruct (str_eqb_spec ([c_lb] ++ text_members l ++ [c_rb]) (lit "{}")) as [E|E].
    - assert (text_members l = []) as N.
      { cbn in E. inversion E as [E']. destruct (text_members l) as [|x t]; auto.
        cbn in E'. inversion E'; subst. destruct t; discriminate. }
      destruct l as [b|pre k mid pre2 v post comma rest].
      + reflexivity.
      + exfalso. cbn in N. destruct pre; discriminate.
    - destruct (members_of T [] l) as [es er] eqn:M.
      destruct run_all as (_ & _ & RM).
      destruct (RM l [] ANone (Some c_lb) [] ROpen (count_bracket c_lb counts0) [] OK TK ltac:(discriminate)
                  ltac:(discriminate) es er M) as (md & c' & Lp & Cb).
      change ([c_lb] ++ text_members l ++ [c_rb]) with (c_lb :: (text_members l ++ [c_rb])).
      cbn [t_loop]. 
      assert (t_step None c_lb tst0 = Ok (TSt MKeys false [] [] [(FMap [], ANone)] ROpen (count_bracket c_lb counts0) []))
        as -> by reflexivity.
      cbn [rbind]. rewrite Lp. cbn [t_pop rbind fst snd t_errs app t_cnt t_stk t_root close_root close].
      destruct er; auto.
      assert (post_errs c' = []) as ->; [|reflexivity].
      unfold post_errs. unfold cbal in Cb. cbn in Cb.
      assert (n_lb c' = n_rb c' /\ n_ls c' = n_rs c' /\ n_oq c' = n_cq c') as (-> & -> & ->) by lia.
      now rewrite !Nat.eqb_refl.
  Qed.
End Run.
