(** * Rewriting a text *)
From Coq Require Import Ascii String List NArith ZArith Bool Lia.
From Verif Require Import GoStr GoNum GoFloat Heap Common ValueModel ArrayModel MapModel JsonModel ParserModel
  StrLemmas SpecDict DictLemmas SpecNum NumLemmas SpecWorld Inv World Reach SpecFloat FloatFacts SpecDoc RepFacts
  SpecText SpecToken TreeParser ParseWorld ParseRefine ParseTop TextRun TokenFacts SpecParse ParseFacts PosFacts TypedFacts
  TextDec ParseMore SpecRender RenderFacts ShowFacts SpecRound RoundFacts StableFacts RoundMore SerialFacts RepeatFacts SpecNormal.
Import ListNotations.

Lemma typed_proper is64 d : typed d -> proper is64 d.
Proof.
  induction d as [|s|y|l|l IH|l IH] using doc_ind'; intros T; inversion T; subst; try (constructor; cbn; auto; fail).
  - constructor. cbn [proper_scalar]. eapply narrow_proper; [left; reflexivity|eassumption].
  - constructor. cbn [proper_scalar]. eapply narrow_proper; [right; reflexivity|eassumption].
  - constructor. match goal with H : Forall typed _ |- _ => revert H end. clear - IH. induction IH; intros HH; constructor; inversion HH; auto.
  - constructor. match goal with H : Forall _ l |- _ => revert H end. revert IH. clear. intros IH.
    induction IH; intros HH; constructor; inversion HH as [|? ? [_ ?]]; auto.
Qed.

(** A float64 beyond float32 is an integer. *)
Lemma big_integer m e : normal_form F64 m e -> overflows F32 (units m e) (2 ^ 1074) ->
  exists t, units m e = (t * 2 ^ 1074)%Z /\ overflows F32 (t * 10 ^ 6) (10 ^ 6).
Proof.
  intros NF O. pose proof NF as [[M E] _]. cbn [prec emin emax] in M, E.
  assert (0 <= e)%Z as Ee.
  { destruct (Z.le_gt_cases 0 e) as [|G]; auto. exfalso. unfold overflows in O. cbn [prec emax] in O. unfold units in O.
    assert (2 ^ (e + 1074) <= 2 ^ 1074)%Z by (apply Z.pow_le_mono_r; lia).
    assert (0 < 2 ^ (e + 1074))%Z by (apply pow2_pos; lia).
    assert (2 ^ 53 <= 2 ^ 104)%Z by (apply Z.pow_le_mono_r; lia).
    change (2 ^ 24)%Z with 16777216%Z in O. change (2 ^ 53)%Z with 9007199254740992%Z in *.
    revert O H H0 H1. generalize (2 ^ (e + 1074))%Z (2 ^ 1074)%Z (2 ^ 104)%Z. intros a c g. nia. }
  exists (m * 2 ^ e)%Z. assert (units m e = m * 2 ^ e * 2 ^ 1074)%Z as Eu by (unfold units; rewrite Z.pow_add_r by lia; ring).
  split; auto. unfold overflows in *. rewrite Eu in O. cbn [prec emax] in *.
  pose proof (pow2_pos 1074 ltac:(lia)) as P. revert O P. generalize (m * 2 ^ e)%Z (2 ^ 1074)%Z ((2 * 2 ^ 24 - 1) * 2 ^ 104)%Z.
  intros a c g O P. assert (g <= 2 * a)%Z by nia. nia.
Qed.

(** What Parse made comes back with the same text. *)
Lemma typed_shows d : forall d' s, typed d -> comes_back d d' -> shows d s -> shows d' s.
Proof.
  induction d as [|s|y|l|l IH|l IH] using doc_ind'; intros d' t P C S; inversion C; subst.
  - exact S.
  - exact S.
  - exact S.
  - inversion S; subst. now constructor.
  - inversion S; subst. now constructor.
  - inversion S; subst. inversion P; subst.
    + match goal with H : rounds_to _ _ _ _ _ |- _ => apply rounds_some in H as (_ & m' & e' & -> & R) end.
      constructor. eapply fixed_back; eauto.
    + exfalso. match goal with H : rounds_to _ _ _ _ _ |- _ => apply rounds_some in H as (NO & _) end. apply NO.
      match goal with H : normal_form F64 _ _, O : overflows _ _ _ |- _ => destruct (big_integer _ _ H O) as (t' & U & O') end.
      replace z with (t' * 10 ^ 6)%Z; auto. symmetry. eapply nearest_integer_exact with (d := (2 ^ 1074)%Z); [apply pow2_pos; lia|].
      replace (t' * 10 ^ 6 * 2 ^ 1074)%Z with (units m e * 10 ^ 6)%Z; auto. rewrite U. generalize (2 ^ 1074)%Z. intros; ring.
  - inversion P; subst.
    + exfalso. match goal with H : rounds_to F32 _ _ _ None |- _ => destruct H as [[O _]|(_ & ? & ? & O & _)]; [|discriminate] end.
      eapply fixed_no_overflow; [|eassumption|exact O]. match goal with H : normal_form _ _ _ |- _ => apply H end.
    + inversion S; subst. match goal with H : rounds_to F64 _ _ _ _ |- _ => apply rounds_some in H as (_ & m' & e' & -> & R) end.
      constructor. eapply fixed_back; eauto.
  - inversion P.
  - inversion P.
  - inversion P as [| | | | | | |? P'|]; inversion S as [| | | | | | | | | | |? ts S'|]; subst. constructor.
    clear - IH P' S' H0. revert ts S'. induction H0; intros ts S'; inversion S'; inversion IH; inversion P'; subst; constructor; auto.
  - inversion P as [| | | | | | | |? ND P']; inversion S as [| | | | | | | | | | | |? ts S']; subst.
    assert (map fst l = map fst l') as ->.
    { clear - H0. induction H0 as [|? ? ? ? [E _]]; cbn; congruence. }
    constructor.
    clear - IH P' S' H0. revert ts S'. induction H0 as [|? ? ? ? [_ ?]]; intros ts S'; inversion S'; inversion IH; inversion P' as [|? ? [_ ?]]; subst; constructor; auto.
Qed.

Lemma parses_typed X h s d : reachable X h -> parses X h s (GVal d) -> typed d.
Proof.
  intros R (h1 & m & E & _ & _ & Rep & _). destruct (parse_typed X h s _ h1 R E) as (m' & d' & Q & Rep' & T).
  inversion Q; subst. now rewrite (rep_obj_fun _ _ _ _ _ _ _ Rep Rep').
Qed.

(** The text that an accepted text is rewritten to. *)
Lemma rewrites_shows X h s d : escape_ok X -> reachable X h -> parses X h s (GVal d) ->
  exists t, shows d t /\ rewrites X s t.
Proof.
  intros E R P. pose proof (parses_typed _ _ _ _ R P) as T.
  assert (G : forall h', reachable X h' -> exists t m h1 n, shows d t /\ Parse X s h' = Ok (GVal (Some m), h1)
    /\ forall fuel b, (n <= fuel)%nat -> map_ToJSONString fuel X h1 m (Some b) = Ok (Some (b ++ t), [])).
  { intros h' R'. apply (proj2 (parse_same X h X h' s R R')) in P as (h1 & m & Q & R1 & _ & Rep & _).
    pose proof (view_impl h1 (reachable_Inv _ _ R1)) as I. apply (proj1 (rep_false_any (x_typed_nil X) _ _)) in Rep.
    destruct (map_json_rep X h1 (view h1) _ E I m d Rep) as (n & J). exists (render d), m, h1, n.
    split; [eapply (shows_render true); now apply typed_proper|]. split; auto.
    intros f b L. cbn [map_ToJSONString]. rewrite (J f L). reflexivity. }
  destruct (G h R) as (t & _ & _ & _ & S & _). exists t. split; auto.
  intros h' R'. destruct (G h' R') as (t' & m & h1 & n & S' & A). rewrite (shows_fun _ _ _ S S'). exists m, h1, n. exact A.
Qed.

Lemma rewrites_fun X s t t' h : reachable X h -> rewrites X s t -> rewrites X s t' -> t = t'.
Proof.
  intros R A B. destruct (A h R) as (m & h1 & n & P & Q), (B h R) as (m' & h1' & n' & P' & Q').
  rewrite P in P'. inversion P'; subst. specialize (Q (n + n') [] ltac:(lia)). specialize (Q' (n + n') [] ltac:(lia)).
  rewrite Q in Q'. now inversion Q'.
Qed.

Lemma rewrites_doc X h s d t : escape_ok X -> reachable X h -> parses X h s (GVal d) -> rewrites X s t -> shows d t.
Proof.
  intros E R P W. destruct (rewrites_shows X h s d E R P) as (t' & S & W'). now rewrite (rewrites_fun X s t t' h R W W').
Qed.

Lemma written_back X h s d t : escape_ok X -> reachable X h -> parses X h s (GVal d) -> writable d -> rewrites X s t ->
  exists d', comes_back d d' /\ forall h', reachable X h' -> parses X h' t (GVal d').
Proof.
  intros E R P W RW. pose proof (parses_typed _ _ _ _ R P) as T. pose proof (rewrites_doc _ _ _ _ _ E R P RW) as S.
  destruct P as (h1 & m & Q & R1 & _ & Rep & _). apply (proj1 (rep_false_any (x_typed_nil X) _ _)) in Rep.
  destruct (round_trip X h1 _ m d [] h R1 E Rep (typed_proper _ _ T) W R) as (n & t' & d' & _ & S' & C & P').
  rewrite (shows_fun _ _ _ S' S) in P'. exists d'. split; auto.
  intros h' R'. now apply (proj2 (parse_same X h X h' t R R')).
Qed.

Lemma rewrites_normal X h s d : escape_ok X -> reachable X h -> parses X h s (GVal d) -> writable d ->
  exists t d', rewrites X s t /\ shows d t /\ comes_back d d'
    /\ (forall h', reachable X h' -> parses X h' t (GVal d')) /\ rewrites X t t.
Proof.
  intros E R P W. destruct (rewrites_shows X h s d E R P) as (t & S & RW).
  destruct (written_back X h s d t E R P W RW) as (d' & C & P'). exists t, d'. split; auto. split; auto. split; auto. split; auto.
  destruct (rewrites_shows X h t d' E R (P' h R)) as (t' & S' & RW').
  assert (shows d' t) as S2 by (eapply typed_shows; eauto; eapply parses_typed; eauto).
  pose proof (shows_fun _ _ _ S2 S') as Eq. rewrite Eq at 2. exact RW'.
Qed.

Lemma rewrites_same X h s s' d d' t t' : escape_ok X -> reachable X h ->
  parses X h s (GVal d) -> writable d -> parses X h s' (GVal d') -> writable d' ->
  rewrites X s t -> rewrites X s' t' ->
  (t = t' <-> exists e, comes_back d e /\ comes_back d' e).
Proof.
  intros E R P W P' W' A A'.
  destruct (written_back X h s d t E R P W A) as (e & C & Q), (written_back X h s' d' t' E R P' W' A') as (e' & C' & Q'). split.
  - intros ->. exists e. split; auto. specialize (Q h R). specialize (Q' h R).
    pose proof (parses_fun _ _ _ _ _ Q Q') as Eq. inversion Eq; subst. auto.
  - intros (f & F & F'). assert (shows f t) as S.
    { eapply typed_shows; [|exact F|]; [eapply parses_typed|eapply rewrites_doc]; eauto. }
    assert (shows f t') as S'.
    { eapply typed_shows; [|exact F'|]; [eapply parses_typed|eapply rewrites_doc]; eauto. }
    eapply shows_fun; eauto.
Qed.

Lemma exact_back d : forall d', typed d -> exact d -> comes_back d d' -> d' = d.
Proof.
  induction d as [|s|y|l|l IH|l IH] using doc_ind'; intros d' T X C; inversion C; subst; auto; try (inversion T; fail).
  - inversion X as [| | |? ? K| |]; subst. destruct K as [K|K]; [lia|].
    inversion T; subst.
    + f_equal. f_equal. eapply narrowest_fun; [left; reflexivity|eassumption|eassumption].
    + exfalso. match goal with H : narrowest signed_types _ _ |- _ => destruct H as (I & _) end.
      cbn in K, I. repeat (destruct K as [<-|K]; [intuition discriminate|]). destruct K.
  - inversion T; subst.
    + exfalso. match goal with H : narrowest unsigned_types _ _ |- _ => destruct H as (I & F & _) end.
      cbn in I. repeat (destruct I as [<-|I]; [destruct F as [[F _]|[_ F]]; [unfold is_signed in F; intuition discriminate|lia]|]). destruct I.
    + f_equal. f_equal. eapply narrowest_fun; [right; reflexivity|eassumption|eassumption].
  - inversion X.
  - inversion X.
  - f_equal. inversion T as [| | | | | | |? T'|]; inversion X as [| | | |? X'|]; subst.
    clear - IH T' X' H0. induction H0; auto. inversion IH; inversion T'; inversion X'; subst. f_equal; auto.
  - f_equal. inversion T as [| | | | | | | |? ND T']; inversion X as [| | | | |? X']; subst.
    clear - IH T' X' H0. induction H0 as [|[k x] [k' x'] l l' [Ek Cx] _ IHl]; auto. inversion IH; inversion T' as [|? ? [_ ?]]; inversion X'; subst.
    cbn in *. f_equal; auto. f_equal; auto.
Qed.

Lemma rewrites_exact X h s s' d d' t t' : escape_ok X -> reachable X h ->
  parses X h s (GVal d) -> writable d -> exact d -> parses X h s' (GVal d') -> writable d' -> exact d' ->
  rewrites X s t -> rewrites X s' t' -> (t = t' <-> d = d').
Proof.
  intros E R P W K P' W' K' A A'. rewrite (rewrites_same X h s s' d d' t t'); auto.
  pose proof (parses_typed _ _ _ _ R P) as T. pose proof (parses_typed _ _ _ _ R P') as T'. split.
  - intros (e & C & C'). rewrite <- (exact_back _ _ T K C). now apply exact_back.
  - intros <-. destruct (written_back X h s d t E R P W A) as (e & C & _). eauto.
Qed.

(** ** Growing keys *)
Definition grow_key (k : nat) : str := repeat c_bs (S k) ++ [c_dq].

Lemma grow_body k : body_ok (grow_key k).
Proof.
  unfold grow_key. split.
  - intros u v E. 
    assert (v = []) as ->.
    { destruct v as [|c v] using rev_ind; auto. exfalso. rewrite app_comm_cons, app_assoc in E. apply app_inj_tail in E as [E _].
      assert (In c_dq (repeat c_bs (S k))) as I by (rewrite E; apply in_or_app; right; left; reflexivity).
      apply repeat_spec in I. discriminate. }
    apply app_inj_tail in E as [<- _]. exists (repeat c_bs k). apply (repeat_cons k c_bs).
  - intros u E. apply app_inj_tail in E as [_ E]. discriminate.
Qed.

Lemma grow_text k : grow k = text_of (JMap (MCons [] (grow_key k) [] [] (JMap (MNil [])) [] false (MNil []))).
Proof.
  unfold grow, grow_key. cbn [text_of text_members opt_comma app]. rewrite <- !app_assoc. reflexivity.
Qed.

Lemma latin1_ascii s : Forall (fun c => (N_of_ascii c < 128)%N) s -> latin1 s = s.
Proof.
  induction 1 as [|c s H _ IH]; auto. cbn [latin1 flat_map]. unfold latin1 in IH. rewrite IH. 
  unfold utf8_of_byte. destruct (N.ltb_spec (N_of_ascii c) 128); [reflexivity|lia].
Qed.

Lemma grow_parses X h k : reachable X h -> parses X h (grow k) (GVal (DMap [(grow_key k, DMap [])])).
Proof.
  intros R. rewrite grow_text.
  pose proof (parse_any X h (MCons [] (grow_key k) [] [] (JMap (MNil [])) [] false (MNil [])) R) as P.
  unfold outcome in P. cbn [members_of value_of key_of dict_set app] in P. rewrite latin1_ascii in P.
  - apply P. cbn [members_ok is_token text_ok gap gap_colon comma_ok]. repeat split; try constructor.
    + apply grow_body.
    + apply grow_body.
    + discriminate.
  - unfold grow_key. apply Forall_app. split; [|repeat constructor]. apply Forall_forall. intros c I. apply repeat_spec in I as ->. reflexivity.
Qed.

Lemma quote_grow k : quote (grow_key k) = [c_dq] ++ grow_key (S k) ++ [c_dq].
Proof.
  unfold quote, grow_key. f_equal. f_equal. rewrite flat_map_app. cbn [flat_map Ascii.eqb app]. 
  replace (flat_map _ (repeat c_bs (S k))) with (repeat c_bs (S k)).
  - change (repeat c_bs (S (S k))) with (c_bs :: repeat c_bs (S k)). rewrite repeat_cons, <- app_assoc. reflexivity.
  - induction (S k) as [|n IH]; auto. cbn [repeat flat_map]. rewrite <- IH. reflexivity.
Qed.

Lemma grow_rewrites X k : escape_ok X -> rewrites X (grow k) (grow (S k)).
Proof.
  intros E h R. destruct (rewrites_shows X h (grow k) _ E R (grow_parses X h k R)) as (t & S & W).
  assert (t = grow (Datatypes.S k)) as ->; [|now apply W].
  eapply shows_fun; [exact S|]. rewrite grow_text. cbn [text_of text_members opt_comma app].
  pose proof (sh_map [(grow_key k, DMap [])] [[c_lb; c_rb]]) as M. cbn [map combine commas fst snd] in M.
  rewrite quote_grow in M. cbn [app] in M. rewrite <- !app_assoc in *. cbn [app] in *. apply M.
  constructor; [|constructor]. apply (sh_map [] []). constructor.
Qed.
