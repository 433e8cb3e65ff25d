(** * The texts on which Parse panics *)
From Coq Require Import Ascii String List NArith ZArith Bool Lia.
From Verif Require Import GoStr StrLemmas GoNum GoFloat Heap Common ValueModel ArrayModel MapModel ParserModel
  SpecDict SpecDoc SpecWorld Inv World Reach TreeParser SpecPanic SpecText SpecParse ParseTop ParseMore.
Import ListNotations.
Local Arguments space_byte : simpl never.

(** ** White space *)
Lemma utf8_case c :
  (utf8_of_byte c = [c] /\ (N_of_ascii c < 128)%N /\ space_byte c = is_space1 c)
  \/ (exists a b, utf8_of_byte c = [a; b] /\ (192 <= N_of_ascii a < 196)%N /\ (128 <= N_of_ascii b < 192)%N
      /\ space_byte c = is_space2 a b).
Proof.
  destruct (N.ltb_spec (N_of_ascii c) 128) as [H|H].
  - left. rewrite utf8_ascii by auto. repeat split; auto.
    destruct c as [[] [] [] [] [] [] [] []]; vm_compute in H |- *; try discriminate; reflexivity.
  - right. destruct (utf8_hi_bytes c H) as (a & b & E & Ha & Hb). exists a, b. repeat split; auto; try lia.
    revert E. destruct c as [[] [] [] [] [] [] [] []]; vm_compute in H; try (exfalso; apply H; reflexivity);
      vm_compute; intros E; injection E as <- <-; reflexivity.
Qed.

Lemma is_space1_lt c : is_space1 c = true -> (N_of_ascii c < 128)%N.
Proof. destruct c as [[] [] [] [] [] [] [] []]; vm_compute; congruence. Qed.
Lemma space1_hi c : (128 <= N_of_ascii c)%N -> is_space1 c = false.
Proof. intros H. destruct (is_space1 c) eqn:E; auto. apply is_space1_lt in E. lia. Qed.
Lemma space2_inv a b : is_space2 a b = true -> N_of_ascii a = 194%N /\ (N_of_ascii b = 133 \/ N_of_ascii b = 160)%N.
Proof.
  unfold is_space2. rewrite andb_true_iff, orb_true_iff, !Ascii.eqb_eq. intros [-> [->| ->]]; vm_compute; auto.
Qed.
Lemma space3_inv a b c : is_space3 a b c = true ->
  (225 <= N_of_ascii a <= 227)%N /\ (N_of_ascii b < 192)%N /\ (128 <= N_of_ascii c)%N.
Proof.
  unfold is_space3. generalize (N_of_ascii a) (N_of_ascii b) (N_of_ascii c). intros x m n H.
  assert (K : (x = 225 \/ x = 226 \/ x = 227)%N).
  { destruct x as [|p]; [discriminate|]. do 8 (destruct p as [p|p|]; try discriminate H); auto. }
  destruct K as [->|[->| ->]].
  - rewrite andb_true_iff, !N.eqb_eq in H. lia.
  - rewrite ?orb_true_iff, ?andb_true_iff, ?orb_true_iff, ?andb_true_iff, ?N.eqb_eq, ?N.leb_le in H. lia.
  - rewrite andb_true_iff, !N.eqb_eq in H. lia.
Qed.

Fixpoint drop_blanks (p : str) : str :=
  match p with c :: t => if space_byte c then drop_blanks t else p | [] => [] end.

Lemma utf8_str_cons c p : utf8_str (c :: p) = utf8_of_byte c ++ utf8_str p.
Proof. reflexivity. Qed.

Lemma trim_left_utf8 p : trim_left (utf8_str p) = utf8_str (drop_blanks p).
Proof.
  induction p as [|c p IH]; auto. rewrite utf8_str_cons. cbn [drop_blanks].
  destruct (utf8_case c) as [(E & L & B)|(a & b & E & La & Lb & B)]; rewrite E, B.
  - cbn [app trim_left]. destruct (is_space1 c); [exact IH|].
    rewrite utf8_str_cons, E. cbn [app]. destruct (utf8_str p) as [|d t]; auto.
    destruct (is_space2 c d) eqn:S2; [apply space2_inv in S2; lia|].
    destruct t as [|e t]; auto. destruct (is_space3 c d e) eqn:S3; [apply space3_inv in S3; lia|auto].
  - cbn [app trim_left]. rewrite (space1_hi a) by lia. destruct (is_space2 a b); [exact IH|].
    rewrite utf8_str_cons, E. cbn [app]. destruct (utf8_str p) as [|d t]; auto.
    destruct (is_space3 a b d) eqn:S3; [apply space3_inv in S3; lia|auto].
Qed.

Lemma trim_right_utf8 p : trim_right_rev (rev (utf8_str (rev p))) = rev (utf8_str (rev (drop_blanks p))).
Proof.
  induction p as [|c p IH]; auto. cbn [rev drop_blanks]. rewrite utf8_str_app, rev_app_distr.
  change (utf8_str [c]) with (utf8_of_byte c ++ []). rewrite app_nil_r.
  assert (K : rev (utf8_str (rev (c :: p))) = rev (utf8_of_byte c) ++ rev (utf8_str (rev p))).
  { cbn [rev]. rewrite utf8_str_app, rev_app_distr. change (utf8_str [c]) with (utf8_of_byte c ++ []). now rewrite app_nil_r. }
  destruct (utf8_case c) as [(E & L & B)|(a & b & E & La & Lb & B)].
  - rewrite E in *. rewrite B. cbn [rev app trim_right_rev]. destruct (is_space1 c); [exact IH|].
    rewrite K. cbn [rev app]. destruct (rev (utf8_str (rev p))) as [|d t]; auto.
    destruct (is_space2 d c) eqn:S2; [apply space2_inv in S2; lia|].
    destruct t as [|e t]; auto. destruct (is_space3 e d c) eqn:S3; [apply space3_inv in S3; lia|auto].
  - rewrite E in *. rewrite B. cbn [rev app trim_right_rev]. rewrite (space1_hi b) by lia.
    destruct (is_space2 a b); [exact IH|]. rewrite K. cbn [rev app].
    destruct (rev (utf8_str (rev p))) as [|d t]; auto.
    destruct (is_space3 d a b) eqn:S3; [apply space3_inv in S3; lia|auto].
Qed.

Definition strip (p : str) : str := rev (drop_blanks (rev (drop_blanks p))).
Lemma trim_space_utf8 p : trim_space (utf8_str p) = utf8_str (strip p).
Proof.
  unfold trim_space, strip. rewrite trim_left_utf8.
  pose proof (trim_right_utf8 (rev (drop_blanks p))) as T. rewrite rev_involutive in T. rewrite T.
  now rewrite rev_involutive.
Qed.

(** ** One lone quote *)
Lemma unesc_empty s : unesc s = [] -> s = [].
Proof.
  destruct s as [|c s]; auto. rewrite unesc_cons. destruct s; [discriminate|]. destruct (Ascii.eqb c c_bs && _); discriminate.
Qed.

Lemma unesc_single s : unesc s = [c_dq] <-> s = [c_dq] \/ s = [c_bs; c_dq].
Proof.
  split.
  - destruct s as [|c s]; [discriminate|]. rewrite unesc_cons. destruct s as [|d t].
    + intros H. injection H as ->. auto.
    + destruct (Ascii.eqb c c_bs && Ascii.eqb d c_dq) eqn:E; intros H.
      * apply andb_true_iff in E as [E1 E2]. apply Ascii.eqb_eq in E1, E2. subst.
        assert (U : unesc t = []) by (injection H; auto). apply unesc_empty in U. subst. auto.
      * assert (U : unesc (d :: t) = []) by (injection H; auto). apply unesc_empty in U. discriminate.
  - intros [->| ->]; reflexivity.
Qed.

Lemma drop_blanks_all p : drop_blanks p = [] <-> forallb space_byte p = true.
Proof.
  induction p as [|c p IH]; cbn; [tauto|]. destruct (space_byte c); cbn; [exact IH|]. split; discriminate.
Qed.

Lemma strip_head p : (exists a, p = a ++ drop_blanks p /\ forallb space_byte a = true).
Proof.
  induction p as [|c p (a & E & F)]; cbn; [now exists []|]. destruct (space_byte c) eqn:B.
  - exists (c :: a). cbn. rewrite B, F. split; [f_equal; auto|auto].
  - now exists [].
Qed.

(** Dropping on the right behind a byte that is not space_byte. *)
Lemma drop_right c u : space_byte c = false ->
  rev (drop_blanks (rev (c :: u))) = c :: rev (drop_blanks (rev u)).
Proof.
  intros B. cbn [rev]. generalize (rev u). intros r. induction r as [|d r IH]; cbn.
  - now rewrite B.
  - destruct (space_byte d); [exact IH|]. cbn. now rewrite rev_app_distr.
Qed.

Lemma rtrim_single u x : space_byte x = false ->
  (rev (drop_blanks (rev u)) = [x] <-> exists t, u = x :: t /\ forallb space_byte t = true).
Proof.
  intros B. split.
  - intros H. destruct (strip_head (rev u)) as (a & E & F).
    apply (f_equal (@rev ascii)) in E. rewrite rev_involutive, rev_app_distr, H in E.
    exists (rev a). split; auto. now rewrite forallb_rev.
  - intros (t & -> & F). rewrite drop_right by auto. f_equal.
    rewrite <- (forallb_rev space_byte t) in F. apply drop_blanks_all in F. now rewrite F.
Qed.

Lemma drop_blanks_nonblank p c u : drop_blanks p = c :: u -> space_byte c = false.
Proof.
  intros E. induction p as [|d p IH]; cbn in E; [discriminate|]. destruct (space_byte d) eqn:D; auto. congruence.
Qed.

Lemma lone_quote_drop p : lone_quote p = lone_quote (drop_blanks p).
Proof.
  induction p as [|c p IH]; auto. cbn [drop_blanks]. destruct (space_byte c) eqn:B; auto.
  cbn [lone_quote]. now rewrite B.
Qed.

Lemma lone_quote_strip p : lone_quote p = true <-> strip p = [c_dq] \/ strip p = [c_bs; c_dq].
Proof.
  rewrite lone_quote_drop. unfold strip. destruct (drop_blanks p) as [|c u] eqn:E.
  - cbn. split; [discriminate|]. intros [H|H]; discriminate.
  - pose proof (drop_blanks_nonblank _ _ _ E) as Bc. rewrite drop_right by auto.
    cbn [lone_quote]. rewrite Bc. destruct (Ascii.eqb c c_dq) eqn:Eq.
    + apply Ascii.eqb_eq in Eq. subst c. rewrite <- (forallb_rev space_byte u), <- drop_blanks_all. split.
      * intros H. left. now rewrite H.
      * intros [H|H]; [|discriminate]. injection H as H.
        apply (f_equal (@rev ascii)) in H. now rewrite rev_involutive in H.
    + destruct (Ascii.eqb c c_bs) eqn:Eb.
      * apply Ascii.eqb_eq in Eb. subst c. split.
        -- intros H. right. f_equal. apply rtrim_single; [reflexivity|]. destruct u as [|d t]; [discriminate|].
           apply andb_true_iff in H as [H1 H2]. apply Ascii.eqb_eq in H1. subst. eauto.
        -- intros [H|H]; [discriminate|]. injection H as H. apply rtrim_single in H; [|reflexivity].
           destruct H as (t & -> & F). cbn. exact F.
      * split; [discriminate|]. intros [H|H]; injection H as H1; subst c; discriminate.
Qed.

(** ** When the text of a value makes the reader panic *)
Lemma utf8_dq p : utf8_str p = [c_dq] <-> p = [c_dq].
Proof.
  split; [|intros ->; reflexivity]. destruct p as [|c p]; [discriminate|]. rewrite utf8_str_cons.
  destruct (utf8_case c) as [(E & L & B)|(a & b & E & La & Lb & B)]; rewrite E; cbn [app]; [|discriminate].
  intros [= -> H]. destruct p as [|d p]; auto. exfalso. rewrite utf8_str_cons in H.
  destruct (utf8_case d) as [(E' & _)|(a & b & E' & _)]; rewrite E' in H; discriminate.
Qed.
Lemma utf8_bsdq p : utf8_str p = [c_bs; c_dq] <-> p = [c_bs; c_dq].
Proof.
  split; [|intros ->; reflexivity]. destruct p as [|c p]; [discriminate|]. rewrite utf8_str_cons.
  destruct (utf8_case c) as [(E & L & B)|(a & b & E & La & Lb & B)]; rewrite E; cbn [app].
  - intros [= -> H]. f_equal. now apply utf8_dq.
  - intros [= -> _]. change (N_of_ascii c_bs) with 92%N in La. lia.
Qed.

Lemma clean_lone p : clean (utf8_str p) = [c_dq] <-> lone_quote p = true.
Proof.
  unfold clean. fold (unesc (trim_space (utf8_str p))). rewrite unesc_single, trim_space_utf8, utf8_dq, utf8_bsdq.
  symmetry. apply lone_quote_strip.
Qed.

Lemma slice_inner_none s : is_quoted s = true -> (slice_inner s = None <-> s = [c_dq]).
Proof.
  intros Q. destruct s as [|c [|d t]].
  - discriminate.
  - cbn. split; auto. intros _. unfold is_quoted in Q. cbn [has_prefix] in Q. apply andb_true_iff in Q as [Q _].
    rewrite ?andb_true_r in Q. apply Ascii.eqb_eq in Q. now subst.
  - split; [|discriminate]. discriminate.
Qed.

Lemma value_text_total (m : bool) k v :
  (m = true -> clean k <> [c_dq]) ->
  match value_text m k v with
  | Panic => clean v = [c_dq]
  | Ok _ => clean v <> [c_dq]
  | _ => False
  end.
Proof.
  intros Hk. unfold value_text.
  assert (K : exists q, (if m then
            if is_quoted (clean k) then
              match slice_inner (clean k) with Some k' => Ok (k', []) | None => Panic end
            else Ok (clean k, [EKeyQuote])
          else Ok (clean k, [])) = Ok q).
  { destruct m; [|eauto]. destruct (is_quoted (clean k)) eqn:Q; [|eauto].
    destruct (slice_inner (clean k)) eqn:S; [eauto|]. apply slice_inner_none in S; auto. now apply Hk in S. }
  destruct K as (q & ->). cbn [rbind].
  destruct (contains_byte c_dq (clean v)) eqn:C.
  - destruct (is_quoted (clean v)) eqn:Q.
    + destruct (slice_inner (clean v)) eqn:S.
      * cbn [rbind fst snd]. rewrite app_nil_r. assert (N : clean v <> [c_dq]) by (intros E; rewrite E in S; discriminate).
        destruct (snd q); auto.
      * cbn [rbind]. now apply slice_inner_none.
    + cbn [rbind fst snd]. assert (N : clean v <> [c_dq]) by (intros E; rewrite E in Q; discriminate).
      destruct (snd q ++ [EValQuote]); auto.
  - cbn [rbind fst snd]. assert (N : clean v <> [c_dq]) by (intros E; rewrite E in C; discriminate).
    destruct (snd q ++ []); auto.
Qed.

(** ** Following the reader *)
Definition mode_place (m : pmode) : place :=
  match m with MKeys => PKeys | MKeyName => PName | MColumn => PColon | MValue => PValue | MNext => PBefore end.
Definition kind_of (f : frame) : kind := if is_fmap f then KObject else KArray.
Definition kinds (l : list (frame * att)) : list kind := map (fun p => kind_of (fst p)) l.

(** A pending key. *)
Definition key_ok (st : tst) : Prop :=
  match t_mode st with
  | MKeys => t_tk st = []
  | MKeyName => exists u, t_tk st = c_dq :: u
  | _ => match t_stk st with
         | (f, _) :: _ => is_fmap f = true -> exists u, t_tk st = c_dq :: u ++ [c_dq]
         | [] => True
         end
  end.

Lemma key_clean u : clean (c_dq :: u ++ [c_dq]) <> [c_dq].
Proof.
  unfold clean. fold (unesc (trim_space (c_dq :: u ++ [c_dq]))). rewrite trim_space_id.
  - intros H. apply unesc_single in H. destruct H as [H|H]; [|discriminate]. injection H as H.
    destruct u; discriminate.
  - intros c t E. injection E as <- _. split; [reflexivity|vm_compute; reflexivity].
  - intros c t E. change (c_dq :: u ++ [c_dq]) with ((c_dq :: u) ++ [c_dq]) in E. apply app_inj_tail in E as [_ <-].
    split; [reflexivity|vm_compute; reflexivity].
Qed.

Record follows (st : tst) (r : reading) : Prop := {
  fo_place : r_place r = mode_place (t_mode st);
  fo_quoted : r_quoted r = t_ps st;
  fo_value : t_tv st = utf8_str (r_value r);
  fo_open : r_open r = kinds (t_stk st);
  fo_key : key_ok st }.

Definition agrees (x : res tst) (o : option reading) : Prop :=
  match x, o with
  | Ok st, Some r => follows st r
  | Panic, None => True
  | _, _ => False
  end.

Lemma agrees_end pop st r :
  follows st r -> t_mode st <> MKeys -> t_mode st <> MKeyName ->
  agrees (t_end pop st) (finish_value pop r).
Proof.
  intros [P Q V O K] N1 N2. unfold t_end, finish_value. rewrite O.
  assert (KK : match t_stk st with
         | (f, _) :: _ => is_fmap f = true -> exists u, t_tk st = c_dq :: u ++ [c_dq]
         | [] => True end) by (unfold key_ok in K; destruct (t_mode st); auto; congruence).
  destruct (t_stk st) as [|[f a] t] eqn:S; cbn [kinds map t_value rbind fst snd].
  - destruct pop; cbn; auto. rewrite P. split; cbn; auto. unfold key_ok. cbn. destruct (t_mode st); auto; congruence.
  - fold (kinds t). pose proof (value_text_total (is_fmap f) (t_tk st) (t_tv st)) as T.
    assert (T0 : is_fmap f = true -> clean (t_tk st) <> [c_dq])
      by (intros E; destruct (KK E) as (u & ->); apply key_clean).
    specialize (T T0). rewrite V in *.
    destruct (value_text (is_fmap f) (t_tk st) (utf8_str (r_value r))) as [g| | |]; try contradiction;
      rewrite clean_lone in T.
    + assert (L : lone_quote (r_value r) = false) by (destruct (lone_quote (r_value r)); congruence).
      rewrite L. cbn [rbind].
      assert (W : exists f' e, match g with GErr e => Ok ((f, a) :: t, e)
                 | GVal (k, p) => Ok (put_top k (doc_of p) ((f, a) :: t), []) end = Ok ((f', a) :: t, e)
                 /\ is_fmap f' = is_fmap f).
      { destruct g as [[k p]|e]; cbn; eauto. do 2 eexists. split; eauto. destruct (doc_of p), f; reflexivity. }
      destruct W as (f' & e & -> & F). cbn [rbind fst snd]. unfold agrees.
      destruct pop.
      * destruct t as [|[g' b] t].
        -- cbn. rewrite P, Q. split; cbn; auto. unfold key_ok. cbn. destruct (t_mode st); auto; congruence.
        -- cbn [t_pop rbind fst snd]. assert (G : is_fmap (att_put a (close f') g') = is_fmap g').
           { destruct a, g'; reflexivity. }
           rewrite Q. split; cbn; auto.
           ++ unfold kind_of. rewrite G. destruct (is_fmap g'); reflexivity.
           ++ unfold kind_of. now rewrite G.
           ++ unfold key_ok. cbn. rewrite G. destruct (is_fmap g'); cbn; auto; discriminate.
      * cbn [rbind fst snd]. rewrite Q. split; cbn; auto.
        -- unfold kind_of. rewrite F. destruct (is_fmap f); reflexivity.
        -- unfold kind_of. now rewrite F.
        -- unfold key_ok. cbn. rewrite F. destruct (is_fmap f); cbn; auto; discriminate.
    + rewrite T. exact I.
Qed.

Lemma utf8_add p b : utf8_str p ++ utf8_of_byte b = utf8_str (p ++ [b]).
Proof. rewrite utf8_str_app. f_equal. change (utf8_str [b]) with (utf8_of_byte b ++ []). now rewrite app_nil_r. Qed.

Lemma agrees_close st r : follows st r -> t_mode st = MKeys -> agrees (t_close_keys st) (close_object r).
Proof.
  intros [P Q V O K] M. unfold t_close_keys, close_object. rewrite O.
  destruct (t_stk st) as [|[f a] [|[g b] t]] eqn:S; cbn.
  - exact I.
  - rewrite P, Q. split; cbn; auto. unfold key_ok. cbn. now rewrite M.
  - assert (G : is_fmap (att_put a (close f) g) = is_fmap g) by (destruct a, g; reflexivity).
    rewrite Q. split; cbn; auto.
    + unfold kind_of. rewrite G. destruct (is_fmap g); reflexivity.
    + unfold kind_of. now rewrite G.
    + unfold key_ok. cbn. rewrite G. destruct (is_fmap g); cbn; auto; discriminate.
Qed.

Lemma attach_ok st : key_ok st -> t_mode st = MValue -> exists a e, t_attach (t_tk st) (t_stk st) = Ok (a, e).
Proof.
  unfold key_ok, t_attach. intros K M. rewrite M in K. destruct (t_stk st) as [|[f a] t]; eauto.
  destruct (is_fmap f); eauto. destruct (K eq_refl) as (u & ->). unfold unquote_key.
  destruct (is_quoted (c_dq :: u ++ [c_dq])) eqn:Q; cbn [rbind]; eauto.
  destruct (slice_inner (c_dq :: u ++ [c_dq])) eqn:S; cbn [rbind]; eauto.
  apply slice_inner_none in S; auto. destruct u; discriminate.
Qed.

Lemma agrees_step_mode q b st r :
  follows st r -> (q = true -> b = c_dq) -> (q = true -> t_ps st = false -> t_mode st <> MValue /\ t_mode st <> MNext) ->
  agrees (t_step_mode q b st) (read_byte q (t_ps st) b r).
Proof.
  intros F B A. pose proof F as [P Q V O K]. unfold t_step_mode, read_byte. rewrite P.
  destruct (t_mode st) eqn:M; cbn [mode_place].
  - (* keys *)
    unfold key_ok in K. rewrite M in K. destruct (Ascii.eqb b c_rb).
    + apply agrees_close; auto. split; cbn; auto. now rewrite M. unfold key_ok. now rewrite M.
    + destruct q; cbn.
      * split; cbn; auto. unfold key_ok. cbn. rewrite K, (B eq_refl). now exists [].
      * split; cbn; auto. now rewrite M. unfold key_ok. now rewrite M.
  - (* name *)
    unfold key_ok in K. rewrite M in K. destruct K as (u & E). destruct q; cbn.
    + split; cbn; auto. unfold key_ok. cbn. rewrite E, (B eq_refl). destruct (t_stk st) as [|[f a] t]; auto.
      intros _. now exists u.
    + split; cbn; auto; [now rewrite M|]. unfold key_ok. cbn. rewrite M, E. now exists (u ++ utf8_of_byte b).
  - (* colon *)
    unfold key_ok in K. rewrite M in K. destruct (Ascii.eqb b c_col); cbn.
    + split; cbn; auto.
    + split; cbn; auto. now rewrite M. unfold key_ok. now rewrite M.
  - (* value *)
    cbn [andb]. assert (QQ : q && negb (t_ps st) = false).
    { destruct q; auto. destruct (t_ps st); auto. destruct (A eq_refl eq_refl). congruence. }
    rewrite QQ. clear QQ A. cbn [t_ps t_set_mode].
    assert (K' : key_ok (t_set_mode MValue st)) by (unfold key_ok in *; cbn; rewrite M in K; exact K).
    assert (Mo : follows (t_add_val (utf8_of_byte b) (t_set_mode MValue st))
                  (Reading PValue (t_ps st) (r_value r ++ [b]) (r_open r))).
    { split; cbn; auto. rewrite V. apply utf8_add. }
    assert (Go : follows (t_set_mode MValue st) (Reading PValue (t_ps st) (r_value r) (r_open r))).
    { split; cbn; auto. }
    destruct (t_ps st) eqn:Ps; cbn [negb]; [exact Mo|].
    destruct (attach_ok _ K' eq_refl) as (a & e & At). cbn [t_tk t_stk t_set_mode] in At.
    destruct (Ascii.eqb b c_lb).
    + unfold t_open_map. cbn [t_tk t_stk t_set_mode]. rewrite At. cbn. rewrite Ps. split; cbn; auto.
      now rewrite O.
    + destruct (Ascii.eqb b c_rb) eqn:Erb.
      * assert (Ascii.eqb b c_ls = false) as ->.
        { apply Ascii.eqb_eq in Erb. subst. reflexivity. }
        cbn [orb]. apply agrees_end; auto; cbn; discriminate.
      * destruct (Ascii.eqb b c_ls).
        -- unfold t_open_array. cbn [t_stk t_set_mode t_tk]. rewrite O. destruct (t_stk st) as [|[f x] t] eqn:S; [exact I|].
           rewrite At. cbn. rewrite Ps. split; cbn; auto. unfold key_ok. cbn. discriminate.
        -- destruct (Ascii.eqb b c_rs); cbn [orb]; [apply agrees_end; auto; cbn; discriminate|].
           destruct (Ascii.eqb b c_com); [apply agrees_end; auto; cbn; discriminate|exact Mo].
  - (* before a value *)
    assert (QQ : q && negb (t_ps st) = false).
    { destruct q; auto. destruct (t_ps st); auto. destruct (A eq_refl eq_refl). congruence. }
    rewrite QQ. clear QQ A. cbn [andb].
    destruct (_ || Ascii.eqb b c_tab).
    { split; cbn; auto. now rewrite M. }
    cbn [t_ps t_set_mode].
    assert (K' : key_ok (t_set_mode MValue st)) by (unfold key_ok in *; cbn; rewrite M in K; exact K).
    assert (Mo : follows (t_add_val (utf8_of_byte b) (t_set_mode MValue st))
                  (Reading PValue (t_ps st) (r_value r ++ [b]) (r_open r))).
    { split; cbn; auto. rewrite V. apply utf8_add. }
    assert (Go : follows (t_set_mode MValue st) (Reading PValue (t_ps st) (r_value r) (r_open r))).
    { split; cbn; auto. }
    destruct (t_ps st) eqn:Ps; cbn [negb]; [exact Mo|].
    destruct (attach_ok _ K' eq_refl) as (a & e & At). cbn [t_tk t_stk t_set_mode] in At.
    destruct (Ascii.eqb b c_lb).
    + unfold t_open_map. cbn [t_tk t_stk t_set_mode]. rewrite At. cbn. rewrite Ps. split; cbn; auto.
      now rewrite O.
    + destruct (Ascii.eqb b c_rb) eqn:Erb.
      * assert (Ascii.eqb b c_ls = false) as ->.
        { apply Ascii.eqb_eq in Erb. subst. reflexivity. }
        cbn [orb]. apply agrees_end; auto; cbn; discriminate.
      * destruct (Ascii.eqb b c_ls).
        -- unfold t_open_array. cbn [t_stk t_set_mode t_tk]. rewrite O. destruct (t_stk st) as [|[f x] t] eqn:S; [exact I|].
           rewrite At. cbn. rewrite Ps. split; cbn; auto. unfold key_ok. cbn. discriminate.
        -- destruct (Ascii.eqb b c_rs); cbn [orb]; [apply agrees_end; auto; cbn; discriminate|].
           destruct (Ascii.eqb b c_com); [apply agrees_end; auto; cbn; discriminate|exact Mo].
Qed.

Lemma agrees_step prev b st r :
  follows st r ->
  agrees (t_step prev b st)
    (let q := Ascii.eqb b c_dq && match prev with Some p => negb (Ascii.eqb p c_bs) | None => true end in
     read_byte q (if q then negb (r_quoted r) else r_quoted r) b r).
Proof.
  intros F. unfold t_step.
  set (q := Ascii.eqb b c_dq && match prev with Some p => negb (Ascii.eqb p c_bs) | None => true end).
  assert (Q : q = true -> b = c_dq) by (unfold q; rewrite andb_true_iff, Ascii.eqb_eq; tauto).
  clearbody q. cbn zeta. pose proof F as [P U V O K]. rewrite U.
  assert (S : forall ps c, follows (t_set_ps ps c st) (Reading (r_place r) ps (r_value r) (r_open r)))
    by (intros ps c; split; cbn; auto).
  assert (RB : forall q ps ps', read_byte q ps b (Reading (r_place r) ps' (r_value r) (r_open r)) = read_byte q ps b r)
    by (intros; reflexivity).
  destruct (t_ps st) eqn:Ps; cbn [negb].
  - destruct q.
    + destruct (t_mode st) eqn:M; cbn [t_set_ps t_mode]; rewrite ?M.
      1-3: rewrite <- (RB true false false);
        apply (agrees_step_mode true b (t_set_ps false (count_close (t_cnt st)) st)); auto; cbn; rewrite M; split; discriminate.
      all: unfold read_byte; rewrite P; cbn [mode_place andb negb]; apply agrees_end; cbn; try (rewrite M; discriminate);
        split; cbn; auto; [now rewrite M|rewrite V; apply utf8_add].
    + apply (agrees_step_mode false b st) in F; [|auto|discriminate]. now rewrite Ps in F.
  - destruct q.
    + rewrite <- (RB true true true).
      apply (agrees_step_mode true b (t_set_ps true (count_open (t_cnt st)) st)); auto. cbn. discriminate.
    + rewrite <- (RB false false false).
      apply (agrees_step_mode false b (t_set_ps false (count_bracket b (t_cnt st)) st)); auto. discriminate.
Qed.

Lemma loop_stumbles s : forall prev st r, follows st r ->
  match t_loop prev s st with
  | Panic => stumbles prev s r = true
  | Ok _ => stumbles prev s r = false
  | _ => False
  end.
Proof.
  induction s as [|b s IH]; intros prev st r F; cbn [t_loop stumbles]; auto.
  pose proof (agrees_step prev b st r F) as A. cbn zeta in A.
  destruct (t_step prev b st) as [st'| | |]; destruct (read_byte _ _ b r) as [r'|]; try contradiction; cbn [rbind]; auto.
  now apply IH.
Qed.

Lemma follows_start : follows tst0 start.
Proof. split; cbn; auto. Qed.

Lemma tparse_total s :
  match tparse s with
  | Panic => panics_on s = true
  | Ok _ => panics_on s = false
  | _ => False
  end.
Proof.
  unfold tparse, panics_on. destruct (pre_errs s) as [|e es] eqn:E.
  - assert (has_prefix [c_lb] s = true /\ has_suffix [c_rb] s = true) as [-> ->].
    { unfold pre_errs in E. destruct s; [discriminate|]. destruct (has_prefix [c_lb] (a :: s)); [|discriminate].
      destruct (has_suffix [c_rb] (a :: s)); [auto|discriminate]. }
    cbn [andb]. destruct (str_eqb s (lit "{}")) eqn:S.
    + apply str_eqb_eq in S. subst. vm_compute. reflexivity.
    + pose proof (loop_stumbles s None tst0 start follows_start) as L.
      destruct (t_loop None s tst0) as [st| | |]; cbn [rbind]; auto.
      destruct (t_errs st); auto. destruct (post_errs (t_cnt st)); auto.
  - unfold pre_errs in E. destruct s as [|c s]; [reflexivity|].
    destruct (has_prefix [c_lb] (c :: s)); cbn [andb]; [|reflexivity].
    destruct (has_suffix [c_rb] (c :: s)); cbn [andb]; [discriminate|reflexivity].
Qed.

Lemma parse_panics_iff X h s : reachable X h -> (Parse X s h = Panic <-> panics_on s = true).
Proof.
  intros R. pose proof (parse_refines X h s R) as P. pose proof (tparse_total s) as T.
  destruct (tparse s) as [g| | |]; try contradiction; cbn [parse_result] in P.
  - rewrite T. destruct g as [[d|]|e]; try contradiction.
    + destruct P as (h' & m & E & _). rewrite E. split; discriminate.
    + destruct P as (_ & h' & E & _). rewrite E. split; discriminate.
  - tauto.
Qed.

(** Otherwise it returns. *)
Lemma parse_returns_iff X h s : reachable X h ->
  ((exists r h', Parse X s h = Ok (r, h')) <-> panics_on s = false).
Proof.
  intros R. pose proof (parse_refines X h s R) as P. pose proof (tparse_total s) as T.
  destruct (tparse s) as [g| | |]; try contradiction; cbn [parse_result] in P; rewrite T.
  - split; auto. intros _. destruct g as [[d|]|e]; try contradiction.
    + destruct P as (h' & m & E & _). eauto.
    + destruct P as (_ & h' & E & _). eauto.
  - split; [|discriminate]. rewrite P. intros (r & h' & [=]).
Qed.

(** Reading a prefix goes no further than reading the whole text. *)
Lemma stumbles_app a b : forall prev r, stumbles prev (a ++ b) r = false -> stumbles prev a r = false.
Proof.
  induction a as [|c a IH]; intros prev r; cbn [app stumbles]; auto.
  destruct (read_byte _ _ c r); auto.
Qed.

Lemma parse_prefix X h a b : reachable X h -> has_prefix [c_lb] (a ++ b) = true -> has_suffix [c_rb] (a ++ b) = true ->
  Parse X (a ++ b) h <> Panic -> Parse X a h <> Panic.
Proof.
  intros R P S N H. apply N. apply parse_panics_iff; auto. apply (parse_panics_iff X h a R) in H.
  unfold panics_on in *. rewrite P, S. cbn [andb]. apply andb_true_iff in H as [_ H].
  destruct (stumbles None (a ++ b) start) eqn:E; auto. apply stumbles_app in E. congruence.
Qed.

Lemma parse_truncated X h l a b :
  reachable X h -> members_ok false l -> text_of (JMap l) = a ++ b -> Parse X a h <> Panic.
Proof.
  intros R OK E. pose proof (parse_no_panic X h l R OK) as N. rewrite E in N.
  apply parse_prefix with (b := b); auto; rewrite <- E; [reflexivity|].
  cbn [text_of]. change ([c_lb] ++ text_members l ++ [c_rb]) with ((c_lb :: text_members l) ++ [c_rb]).
    now rewrite has_suffix1_app.
Qed.
