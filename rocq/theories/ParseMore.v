(** * More facts about Parse: values at positions, freshness *)
From Coq Require Import Ascii String List NArith ZArith Bool Lia.
From Verif Require Import GoStr GoNum GoFloat Heap Common ValueModel ArrayModel MapModel JsonModel ParserModel
  StrLemmas SpecDict DictLemmas SpecNum NumLemmas SpecWorld Inv World Reach SpecFloat FloatFacts SpecDoc RepFacts
  SpecText SpecToken TreeParser ParseWorld ParseRefine ParseTop TextRun TokenFacts SpecParse ParseFacts PosFacts TypedFacts
  TextDec.
Import ListNotations.

Lemma elem_ok l v : elems_ok false l -> In v (elem_list l) -> text_ok false v.
Proof.
  induction l as [b|pre v' post c r IH]; cbn [elem_list elems_ok]; [intros _ []|]. intros (A & B & C & D & E).
  destruct (present v'); auto. intros [<-|I]; auto.
Qed.
Lemma member_ok l k v : members_ok false l -> In (k, v) (member_list l) -> text_ok false v.
Proof.
  induction l as [b|pre k' mid pre2 v' post c r IH]; cbn [member_list members_ok]; [intros _ []|].
  intros (A & B & C & D & E & F & G & H).
  destruct (present v'); auto. intros [Q|I]; auto. inversion Q; subst; auto.
Qed.

Lemma text_at_ok : forall p v v', text_ok false v -> text_at v p = Some v' -> text_ok false v'.
Proof.
  induction p as [|x p IH]; intros v v' OK E; cbn in E; [inversion E; subst; auto|].
  destruct x as [k|n]; destruct v as [t|b|l|l]; try discriminate.
  - destruct (last_of k (member_list l)) as [u|] eqn:L; [|discriminate]. apply last_of_In in L.
    eapply IH; [|exact E]. eapply member_ok; eauto.
  - destruct (nth_error (elem_list l) n) as [u|] eqn:L; [|discriminate]. apply nth_error_In in L.
    eapply IH; [|exact E]. eapply elem_ok; eauto.
Qed.

Lemma alone_key v : key_of (lit "x") v = lit "x".
Proof. destruct v; reflexivity. Qed.

Lemma alone_value X h v d :
  reachable X h -> text_ok false v -> value_of T0 v = (Some d, []) ->
  parses X h (text_of (alone v)) (GVal (DMap [(lit "x", d)])).
Proof.
  intros R OK E. pose proof (parse_any X h (MCons [] (lit "x") [] [] v [] false (MNil [])) R) as P.
  assert (O : outcome T0 (MCons [] (lit "x") [] [] v [] false (MNil [])) = GVal (DMap [(lit "x", d)])).
  { unfold outcome. rewrite members_of_MCons, E, alone_key. reflexivity. }
  rewrite O in P. apply P. cbn [members_ok gap gap_colon].
  split; [constructor|]. split; [now apply bodyb_ok|]. split; [constructor|]. split; [constructor|].
  split; auto. split; [destruct (is_token v); constructor|].
  split; [|constructor]. cbn. right. auto.
Qed.

(** The value at a position is the one its text has on its own. *)
Lemma at_alone X h l d p :
  reachable X h -> members_ok false l -> plain_tokens l -> parses X h (text_of (JMap l)) (GVal d) ->
  match text_at (JMap l) p with
  | Some v => exists d', doc_at d p = Some d' /\ parses X h (text_of (alone v)) (GVal (DMap [(lit "x", d')]))
  | None => doc_at d p = None
  end.
Proof.
  intros R OK PL P. pose proof (parse_position X h l d p R OK PL P) as Q.
  destruct (text_at (JMap l) p) as [v|] eqn:E; auto. destruct Q as (d' & A & B & C).
  exists d'. split; auto. apply alone_value; auto. eapply text_at_ok with (v := JMap l); eauto.
Qed.

Lemma text_at_app : forall p q v, text_at v (p ++ q) = match text_at v p with Some v' => text_at v' q | None => None end.
Proof.
  induction p as [|[k|n] p IH]; intros q v; cbn; auto.
  - destruct v; auto. destruct (last_of k (member_list l)); auto.
  - destruct v; auto. destruct (nth_error (elem_list l) n); auto.
Qed.
Lemma doc_at_app : forall p q d, doc_at d (p ++ q) = match doc_at d p with Some d' => doc_at d' q | None => None end.
Proof.
  induction p as [|[k|n] p IH]; intros q d; cbn; auto.
  - destruct d; auto. destruct (dict_get l k); auto.
  - destruct d; auto. destruct (nth_error l n); auto.
Qed.

(** Objects (C16). *)
Lemma at_object X h l d p l' :
  reachable X h -> members_ok false l -> plain_tokens l -> parses X h (text_of (JMap l)) (GVal d) ->
  text_at (JMap l) p = Some (JMap l') ->
  exists es, doc_at d p = Some (DMap es) /\ dict_keys es = first_keys (map fst (member_list l'))
    /\ forall k v, last_of k (member_list l') = Some v ->
         exists d', dict_get es k = Some d' /\ parses X h (text_of (alone v)) (GVal (DMap [(lit "x", d')])).
Proof.
  intros R OK PL P E. destruct (at_map X h l d p l' R OK PL P E) as (es & A & K). exists es. repeat split; auto.
  intros k v L. pose proof (at_alone X h l d (p ++ [PKey k]) R OK PL P) as Q.
  rewrite text_at_app, E in Q. cbn [text_at] in Q. rewrite L in Q. destruct Q as (d' & B & C). exists d'. split; auto.
  rewrite doc_at_app, A in B. cbn in B. destruct (dict_get es k); inversion B; auto.
Qed.

(** Arrays (C17). *)
Lemma at_elements X h l d p l' :
  reachable X h -> members_ok false l -> plain_tokens l -> parses X h (text_of (JMap l)) (GVal d) ->
  text_at (JMap l) p = Some (JArr l') ->
  exists ds, doc_at d p = Some (DArr ds)
    /\ Forall2 (fun v d' => parses X h (text_of (alone v)) (GVal (DMap [(lit "x", d')]))) (elem_list l') ds.
Proof.
  intros R OK PL P E. pose proof (parse_position X h l d p R OK PL P) as Q. rewrite E in Q.
  destruct Q as (d' & A & B & C). rewrite value_of_JArr in B. destruct (elems_of T0 l') as [ds e] eqn:M.
  inversion B; subst. exists ds. split; auto. cbn [tokens] in C.
  assert (F : Forall (tok_fine T0) (tokens_elems l')) by (eapply Forall_impl; [apply T0_fine|auto]).
  pose proof (elems_pos T0 l' ds F M) as G.
  assert (OK' : forall v, In v (elem_list l') -> text_ok false v).
  { intros v. apply elem_ok. apply (text_at_ok p (JMap l) (JArr l')); auto. }
  clear -G OK' R. induction G as [|v x l1 l2 H _ IH]; constructor.
  - apply alone_value; auto. apply OK'. now left.
  - apply IH. intros v' I. apply OK'. now right.
Qed.

(** ** Literals at positions *)

Lemma at_nat X h l d p t z :
  reachable X h -> members_ok false l -> plain_tokens l -> parses X h (text_of (JMap l)) (GVal d) ->
  text_at (JMap l) p = Some (JTok t) -> numeral (squeeze t) z ->
  exists k, narrowest unsigned_types z k /\ doc_at d p = Some (DScal (SInt k z)).
Proof.
  intros R OK PL P E N.
  destruct (Z_lt_dec z (2 ^ 64)) as [L|G].
  - destruct (narrow_unsigned_narrowest z) as (k & _ & K); [pose proof (numeral_nonneg _ _ N); lia|].
    exists k. split; auto. eapply at_token; eauto. now apply lx_nat.
  - exfalso. pose proof (parse_position X h l d p R OK PL P) as Q. rewrite E in Q. destruct Q as (d' & A & B & C).
    rewrite value_of_JTok in B. cbn [tokens] in C. inversion C; subst. rewrite T0_scalar in B by auto.
    rewrite (lexeme_scalar _ _ (lx_nat_big _ z N ltac:(lia))) in B. discriminate.
Qed.

Lemma at_neg X h l d p t u z :
  reachable X h -> members_ok false l -> plain_tokens l -> parses X h (text_of (JMap l)) (GVal d) ->
  text_at (JMap l) p = Some (JTok t) -> squeeze t = "-"%char :: u -> numeral u z ->
  exists k, narrowest signed_types (- z)%Z k /\ doc_at d p = Some (DScal (SInt k (- z)%Z)).
Proof.
  intros R OK PL P E Sq N.
  destruct (Z_le_dec z (2 ^ 63)) as [L|G].
  - destruct (narrow_signed_narrowest (- z)%Z) as (k & _ & K); [pose proof (numeral_nonneg _ _ N); lia|].
    exists k. split; auto. eapply at_token; eauto. rewrite Sq. now apply lx_neg.
  - exfalso. pose proof (parse_position X h l d p R OK PL P) as Q. rewrite E in Q. destruct Q as (d' & A & B & C).
    rewrite value_of_JTok in B. cbn [tokens] in C. inversion C; subst. rewrite T0_scalar in B by auto.
    rewrite Sq, (lexeme_scalar _ _ (lx_neg_big _ z N ltac:(lia))) in B. discriminate.
Qed.

(** ** Everything found from the result is new (C39) *)

Lemma rep_elems_nth tn w F l ds n v :
  rep_elems tn w F l ds -> nth_error l n = Some (Some v) -> exists d, rep_value tn w F (Some v) d.
Proof.
  intros H. revert n. induction H as [|o d l ds H _ IH]; intros [|n] E; try discriminate; cbn in E; eauto.
  inversion E; subst. eauto.
Qed.
Lemma rep_members_get tn w F l ds k v :
  rep_members tn w F l ds -> dict_get l k = Some (Some v) -> exists d, rep_value tn w F (Some v) d.
Proof.
  intros H. induction H as [|k' o d l ds H _ IH]; cbn; [discriminate|].
  destruct (str_eqb k' k); auto. intros E. inversion E; subst. eauto.
Qed.

Scheme oa_mut := Minimality for object_at Sort Prop
  with va_mut := Minimality for value_at Sort Prop.
Combined Scheme oa_combined from oa_mut, va_mut.

(** One identity is at most one of a map, an array and a variable. *)
Definition one_kind (w : world) : Prop :=
  forall l, (forall d a, w_map w l = Some d -> w_arr w l = Some a -> False)
    /\ (forall d s, w_map w l = Some d -> w_var w l = Some s -> False)
    /\ (forall a s, w_arr w l = Some a -> w_var w l = Some s -> False).
Lemma one_kind_view h : one_kind (view h).
Proof.
  intros l. cbn. destruct (nth_error h l) as [[]|]; repeat split; intros; discriminate.
Qed.

(** What is known of the objects of a structure that represents a document. *)
Definition rep_at_obj (w : world) (F : nat -> Prop) (l : nat) : Prop :=
  F l /\ (forall d, w_map w l = Some d -> exists es, rep_members NoNils w F d es)
  /\ (forall a, w_arr w l = Some a -> exists ds, rep_elems NoNils w F a ds).

Lemma rep_obj_at w (F : nat -> Prop) i d l : one_kind w -> rep_obj NoNils w F i d -> refers i = Some l -> rep_at_obj w F l.
Proof.
  intros K R Rf. destruct (K l) as (K1 & K2 & K3).
  inversion R; subst; cbn in Rf; try discriminate.
  - inversion Rf; subst. split; auto. split; intros; exfalso; eauto.
  - assert (m = l) as -> by (match goal with H : _ \/ _ |- _ => destruct H as [Q|Q]; subst end; cbn in Rf; congruence).
    split; auto. split; intros; [|exfalso; eauto]. exists es. congruence.
  - assert (a = l) as -> by (match goal with H : _ \/ _ |- _ => destruct H as [Q|Q]; subst end; cbn in Rf; congruence).
    split; auto. split; intros; [exfalso; eauto|]. exists ds. congruence.
Qed.

Lemma rep_at w (F : nat -> Prop) m d :
  one_kind w -> rep_obj NoNils w F (IMap m) d ->
  (forall p l, object_at w m p l -> rep_at_obj w F l)
  /\ (forall p v, value_at w m p v -> exists d', rep_value NoNils w F (Some v) d').
Proof.
  intros K R. apply oa_combined.
  - eapply rep_obj_at; eauto.
  - intros p v i l _ (d' & Rv) E Rf. inversion Rv; subst. rewrite E in *.
    match goal with H : Some _ = Some _ |- _ => inversion H; subst end.
    eapply rep_obj_at; eauto.
  - intros p x c v _ (Fc & A & B) S. destruct x as [k|n]; unfold slot in S; destruct S as (y & E & G).
    + destruct (A y E) as [es Q]. eapply rep_members_get; eauto.
    + destruct (B y E) as [es Q]. eapply rep_elems_nth; eauto.
Qed.

Lemma parse_fresh X h s m h' :
  reachable X h -> Parse X s h = Ok (GVal m, h') ->
  exists m', m = Some m' /\ reachable X h' /\ unchanged h h' /\ no_sharing (view h') m'
    /\ (forall p l, object_at (view h') m' p l -> new_in h l)
    /\ (forall p v, value_at (view h') m' p v -> new_in h v).
Proof.
  intros R E. destruct (parse_outcomes X h s R) as [P|[[e P]|(d & T & P)]].
  - congruence.
  - destruct P as (_ & h1 & P & _). congruence.
  - destruct P as (h1 & m1 & P & R' & U & D & N). rewrite P in E. inversion E; subst.
    exists m1. destruct (rep_at _ _ _ _ (one_kind_view h') D) as [A B].
    repeat split; auto; try apply U; auto; try apply N.
    + intros p l O. apply (A p l O).
    + intros p v O. destruct (B p v O) as [d' Q]. inversion Q; subst; auto.
Qed.

Lemma parse_typed X h s m h' :
  reachable X h -> Parse X s h = Ok (GVal m, h') ->
  exists m' d, m = Some m' /\ rep_obj NoNils (view h') (new_in h) (IMap m') d /\ typed d.
Proof.
  intros R E. destruct (parse_outcomes X h s R) as [P|[[e P]|(d & T & P)]].
  - congruence.
  - destruct P as (_ & h1 & P & _). congruence.
  - destruct P as (h1 & m1 & P & R' & U & D & N). rewrite P in E. inversion E; subst. exists m1, d. auto.
Qed.

(** Parse on a concrete text, in every state. *)
Lemma parse_panic X h s : reachable X h -> tparse s = Panic -> Parse X s h = Panic.
Proof. intros R E. pose proof (parse_refines X h s R) as P. now rewrite E in P. Qed.

Lemma parse_no_panic X h l : reachable X h -> members_ok false l -> Parse X (text_of (JMap l)) h <> Panic.
Proof.
  intros R OK E. pose proof (parse_any X h l R OK) as P. destruct (outcome T0 l) as [d|e]; cbn [parses] in P.
  - destruct P as (h' & m & P & _). congruence.
  - destruct P as (_ & h' & P & _). congruence.
Qed.

Lemma squeeze_token t : Forall (fun c => printable c /\ c <> c_bs) t -> squeeze t = t.
Proof.
  induction 1 as [|c t [[P _] Q] _ IH]; auto. unfold squeeze in *. cbn [filter].
  assert (ignored c = false) as ->.
  { unfold ignored. apply Bool.not_true_is_false. rewrite existsb_eqb. cbn. intros [<-|[<-|[<-|[<-|[<-|[]]]]]]; cbn in P; try lia. congruence. }
  cbn. now f_equal.
Qed.

(** A strict token on its own. *)
Lemma alone_token X h t d :
  reachable X h -> token_ok true t -> lexeme t (TokDoc d) ->
  parses X h (text_of (alone (JTok t))) (GVal (DMap [(lit "x", d)])).
Proof.
  intros R TK L. pose proof TK as (_ & _ & F). apply alone_value; auto.
  - apply (proj1 strict_lenient_all (JTok t)). exact TK.
  - rewrite value_of_JTok, (means_T0 t (TokDoc d)); auto. split; [|now rewrite squeeze_token].
    eapply Forall_impl; [|exact F]. intros c [H _]. now right.
Qed.

Lemma digit_token u neg : Forall is_digit u -> u <> [] -> token_ok true (sign neg ++ u).
Proof.
  intros F N.
  assert (D : Forall (fun c => (~ structural c /\ c <> c_com) /\ printable c /\ c <> c_bs) (sign neg ++ u)).
  { apply Forall_app. split.
    - destruct neg; constructor; [|constructor]. unfold structural, printable. cbn. repeat split; try lia; intuition discriminate.
    - eapply Forall_impl; [|exact F]. intros c [H1 H2]. unfold digit in *.
      unfold structural, printable. 
      assert (Q : forall x, ((N_of_ascii x < 48)%N \/ (57 < N_of_ascii x)%N) -> c <> x) by (intros x Hx ->; lia).
      repeat split; try lia; try (apply Q; cbn; lia).
      intros [H|[H|[H|[H|H]]]]; revert H; apply Q; cbn; lia. }
  split; [|split].
  - eapply Forall_impl; [|exact D]. cbn. tauto.
  - destruct neg, u; cbn; congruence.
  - eapply Forall_impl; [|exact D]. cbn. tauto.
Qed.

Lemma alone_integer X h z (neg : bool) u :
  reachable X h -> numeral u z -> (if neg then (z <= 2 ^ 63)%Z else (z < 2 ^ 64)%Z) ->
  exists k, narrowest (if neg then signed_types else unsigned_types) (if neg then - z else z)%Z k
    /\ parses X h (text_of (alone (JTok (sign neg ++ u)))) (GVal (DMap [(lit "x", DScal (SInt k (if neg then - z else z)%Z))])).
Proof.
  intros R N Rg. pose proof (numeral_nonneg _ _ N) as Z0.
  assert (TK : token_ok true (sign neg ++ u)) by (destruct N as (A & B & _); now apply digit_token).
  destruct neg.
  - destruct (narrow_signed_narrowest (- z)%Z) as (k & _ & K); [lia|]. exists k. split; auto.
    apply alone_token; auto. now apply (lx_neg u z k).
  - destruct (narrow_unsigned_narrowest z) as (k & _ & K); [lia|]. exists k. split; auto.
    apply alone_token; auto. now apply (lx_nat u z k).
Qed.

Lemma integer_out_of_range X h l t z (neg : bool) u :
  reachable X h -> members_ok false l -> In t (tokens_members l) -> Forall plain t ->
  squeeze t = sign neg ++ u -> numeral u z -> (if neg then (2 ^ 63 < z)%Z else (2 ^ 64 <= z)%Z) ->
  exists es, parses X h (text_of (JMap l)) (GErr es) /\ In (if neg then EIntSyn else EUintSyn) es.
Proof.
  intros R OK I P S N Rg.
  destruct (some_error X h l t [if neg then EIntSyn else EUintSyn]) as (es & A & B); auto; try discriminate.
  - split; auto. rewrite S. destruct neg; cbn [sign app]; [eapply lx_neg_big|eapply lx_nat_big]; eauto.
  - exists es. split; auto. apply B. now left.
Qed.

(** Decimals (C10). *)
Lemma at_decimal X h l d p t neg u n q :
  reachable X h -> members_ok false l -> plain_tokens l -> parses X h (text_of (JMap l)) (GVal d) ->
  text_at (JMap l) p = Some (JTok t) -> squeeze t = sign neg ++ u -> fraction u n q ->
  exists k f, doc_at d p = Some (DScal (SFlt k f)) /\ rounds_to k neg n q (Some f)
    /\ (k = F32 \/ rounds_to F32 neg n q None).
Proof.
  intros R OK PL P E Sq Fr.
  assert (NN : (0 <= n /\ 0 < q)%Z).
  { destruct Fr as (i & f & x & e & _ & Fi & Ff & _ & _ & -> & ->). split.
    - apply Z.mul_nonneg_nonneg; [apply decimal_nonneg; apply Forall_app; auto|apply Z.pow_nonneg; lia].
    - apply Z.pow_pos_nonneg; lia. }
  destruct NN as [N Q].
  pose proof (rounds_to_round F32 neg n q N Q) as A. pose proof (rounds_to_round F64 neg n q N Q) as B.
  destruct (round_opt F32 neg n q) as [f|].
  - exists F32, f. split; auto. eapply at_token; eauto. rewrite Sq. now apply (lx_float32 neg u n q).
  - destruct (round_opt F64 neg n q) as [f|].
    + exists F64, f. split; auto. eapply at_token; eauto. rewrite Sq. now apply (lx_float64 neg u n q).
    + exfalso. pose proof (parse_position X h l d p R OK PL P) as V. rewrite E in V. destruct V as (d' & _ & V & C).
      rewrite value_of_JTok in V. cbn [tokens] in C. inversion C; subst. rewrite T0_scalar in V by auto.
      rewrite Sq, (lexeme_scalar _ _ (lx_float_big neg u n q Fr B)) in V. discriminate.
Qed.

Lemma decimal_out_of_range X h l t neg u n q :
  reachable X h -> members_ok false l -> In t (tokens_members l) -> Forall plain t ->
  squeeze t = sign neg ++ u -> fraction u n q -> rounds_to F64 neg n q None ->
  exists es, parses X h (text_of (JMap l)) (GErr es) /\ In EFloatSyn es.
Proof.
  intros R OK I P S N Rg.
  destruct (some_error X h l t [EFloatSyn]) as (es & A & B); auto; try discriminate.
  - split; auto. rewrite S. eapply lx_float_big; eauto.
  - exists es. split; auto. apply B. now left.
Qed.

(** Malformed scalars (C11). *)
Lemma all_errors X h l T :
  reachable X h -> members_ok false l ->
  (forall t, In t (tokens_members l) -> token_means t (T t)) -> scalar_errs T l <> [] ->
  parses X h (text_of (JMap l)) (GErr (scalar_errs T l)).
Proof.
  intros R OK M N. pose proof (parse_text X h l T R OK M) as P. pose proof (outcome_errs T l) as O.
  destruct (outcome T l); [congruence|]. destruct O as [-> _]. exact P.
Qed.

Lemma at_keyword X h l d p t :
  reachable X h -> members_ok false l -> plain_tokens l -> parses X h (text_of (JMap l)) (GVal d) ->
  text_at (JMap l) p = Some (JTok t) ->
  (squeeze t = lit "true" -> doc_at d p = Some (DScal (SBool true)))
  /\ (squeeze t = lit "false" -> doc_at d p = Some (DScal (SBool false)))
  /\ (squeeze t = lit "null" -> doc_at d p = Some DNull).
Proof.
  intros R OK PL P E. repeat split; intros S; eapply at_token; eauto; rewrite S; constructor.
Qed.

(** ASCII text is unchanged by the Latin-1 reading. *)
Lemma latin1_ascii s : Forall (fun c => (N_of_ascii c < 128)%N) s -> latin1 s = s.
Proof. intros H. rewrite latin1_utf8. now apply utf8_str_ascii. Qed.
