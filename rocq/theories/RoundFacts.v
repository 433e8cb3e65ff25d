(** * Writing a document and reading it back *)
From Coq Require Import Ascii String List NArith ZArith Bool Lia.
From Verif Require Import GoStr GoNum GoFloat Heap Common ValueModel ArrayModel MapModel JsonModel ParserModel
  StrLemmas SpecDict DictLemmas SpecNum NumLemmas SpecWorld Inv World Reach SpecFloat FloatFacts SpecDoc RepFacts
  SpecText SpecToken TreeParser ParseWorld ParseRefine ParseTop TextRun TokenFacts SpecParse ParseFacts PosFacts TypedFacts
  TextDec ParseMore SpecRender RenderFacts ShowFacts SpecRound.
Import ListNotations.

(** ** The structure of a rendered text *)
Fixpoint elems_of_list (l : list jtext) : jelems :=
  match l with
  | [] => ENil []
  | v :: t => ECons [] v [] (match t with [] => false | _ => true end) (elems_of_list t)
  end.
Fixpoint members_of_list (l : list (str * jtext)) : jmembers :=
  match l with
  | [] => MNil []
  | (k, v) :: t => MCons [] k [] [] v [] (match t with [] => false | _ => true end) (members_of_list t)
  end.
Fixpoint jt (d : doc) : jtext :=
  match d with
  | DNull => JTok (lit "null")
  | DScal (SStr t) => JStr (esc t)
  | DScal s => JTok (scalar_json s)
  | DErr t => JStr (esc t)
  | DTexts l => JArr (elems_of_list (map (fun t => JStr (esc t)) l))
  | DArr l => JArr (elems_of_list (map jt l))
  | DMap l => JMap (members_of_list (map (fun kd => (esc (fst kd), jt (snd kd))) l))
  end.

Lemma text_elems_list l : text_elems (elems_of_list l) = commas (map text_of l).
Proof.
  induction l as [|v l IH]; [reflexivity|]. cbn [elems_of_list text_elems map app]. rewrite IH, commas_cons.
  destruct l; reflexivity.
Qed.
Lemma text_members_list l :
  text_members (members_of_list l) = commas (map (fun kv => [c_dq] ++ fst kv ++ [c_dq] ++ [c_col] ++ text_of (snd kv)) l).
Proof.
  induction l as [|[k v] l IH]; [reflexivity|]. cbn [members_of_list text_members map fst snd]. rewrite IH, commas_cons.
  destruct l; cbn [map opt_comma app]; rewrite <- ?app_assoc; reflexivity.
Qed.

Lemma text_jt d : text_of (jt d) = render d.
Proof.
  induction d as [|s|y|l|l IH|l IH] using doc_ind'.
  - reflexivity.
  - destruct s; reflexivity.
  - cbn [jt text_of render]. now rewrite quote_esc.
  - cbn [jt text_of render]. rewrite text_elems_list, map_map. do 3 f_equal. apply map_ext. intros t.
    now rewrite quote_esc.
  - cbn [jt text_of render]. rewrite text_elems_list, map_map. do 3 f_equal.
    apply map_ext_in. rewrite Forall_forall in IH. auto.
  - cbn [jt text_of render]. rewrite text_members_list, map_map. do 3 f_equal.
    apply map_ext_in. intros x Hx. rewrite Forall_forall in IH. cbn [fst snd]. rewrite (IH x Hx), quote_esc.
    rewrite <- !app_assoc. reflexivity.
Qed.

(** ** It is a strict text *)
Lemma esc_quotes s : forall u v, esc s = u ++ c_dq :: v -> exists u', u = u' ++ [c_bs].
Proof.
  induction s as [|c s IH]; intros u v E; [destruct u; discriminate|]. rewrite esc_cons in E.
  destruct (Ascii.eqb_spec c_dq c) as [<-|N]; cbn [app] in E.
  - destruct u as [|a [|b u]]; try discriminate; cbn [app] in E.
    + injection E as <- E. exists []. reflexivity.
    + injection E as <- <- E. destruct (IH u v E) as (u' & ->). exists (c_bs :: c_dq :: u'). reflexivity.
  - destruct u as [|a u]; cbn [app] in E.
    + injection E as E _. congruence.
    + injection E as <- E. destruct (IH u v E) as (u' & ->). exists (c :: u'). reflexivity.
Qed.

Lemma body_esc s : (forall u, s <> u ++ [c_bs]) -> body_ok (esc s).
Proof.
  intros H. split; [apply esc_quotes|]. intros u E.
  destruct s as [|c s]; [destruct u; discriminate|].
  assert (c :: s <> []) as N by discriminate. apply esc_last in N. rewrite E, last_last in N.
  destruct (list_last_case (c :: s)) as [Q|(l & x & Q)]; [discriminate|]. rewrite Q, last_last in N. subst x.
  now apply (H l).
Qed.

Lemma digit_token c : is_digit c -> printable c /\ c <> c_bs /\ ~ structural c /\ c <> c_com.
Proof.
  intros D. assert (In c (lit "0123456789")) as I by now apply digit_list.
  cbn in I. unfold printable, structural.
  repeat (destruct I as [<-|I]; [repeat split; try discriminate; try (cbn; lia); intros [|[|[|[|]]]]; discriminate|]). destruct I.
Qed.

Ltac tokb := repeat (apply Forall_cons; [right; reflexivity|]); apply Forall_nil.
Definition tokenb (c : ascii) : bool :=
  (N.leb 33 (N_of_ascii c) && N.leb (N_of_ascii c) 126
   && negb (existsb (Ascii.eqb c) [c_dq; c_lb; c_rb; c_ls; c_rs; c_bs; c_com]))%bool.
Lemma tokenb_ok c : tokenb c = true -> printable c /\ c <> c_bs /\ ~ structural c /\ c <> c_com.
Proof.
  unfold tokenb. rewrite !andb_true_iff, negb_true_iff. intros [[A B] C].
  apply N.leb_le in A, B.
  assert (forall x, In x [c_dq; c_lb; c_rb; c_ls; c_rs; c_bs; c_com] -> c <> x) as N.
  { intros x Hx ->. assert (existsb (Ascii.eqb x) [c_dq; c_lb; c_rb; c_ls; c_rs; c_bs; c_com] = true); [|congruence].
    apply existsb_exists. exists x. split; auto. apply ascii_eqb_refl. }
  unfold printable, structural. cbn in N. split; [split; [lia | auto]|]. split; [auto 8|]. split; [|auto 9].
  intros Q. destruct Q as [Q|[Q|[Q|[Q|Q]]]]; revert Q; apply N; auto 8.
Qed.
Lemma token_ok_b t : t <> [] -> Forall (fun c => is_digit c \/ tokenb c = true) t -> token_ok true t.
Proof.
  intros N F. assert (G : Forall (fun c => printable c /\ c <> c_bs /\ ~ structural c /\ c <> c_com) t).
  { eapply Forall_impl; [|exact F]. intros c [D|D]; [now apply digit_token | now apply tokenb_ok]. }
  split; [|split; auto]; (eapply Forall_impl; [|exact G]); cbn; tauto.
Qed.

Lemma scalar_token is64 s : proper_scalar is64 s -> finite s -> (forall t, s <> SStr t) ->
  scalar_json s <> [] /\ Forall (fun c => is_digit c \/ tokenb c = true) (scalar_json s).
Proof.
  intros P F N. destruct s as [t|[]|k z|k [neg m e|[]|]]; cbn [finite] in F; try contradiction.
  - destruct (N t eq_refl).
  - split; [discriminate|]. tokb.
  - split; [discriminate|]. tokb.
  - cbn [scalar_json]. destruct (integer_text_format is64 k z P) as (u & -> & (Nu & D & _) & _). split.
    + intros Q. apply app_eq_nil in Q as [_ Q]. auto.
    + apply Forall_app. split.
      * destruct (z <? 0)%Z; tokb.
      * eapply Forall_impl; [|exact D]. auto.
  - cbn [scalar_json]. apply emin_range in P as [M E].
    destruct (fixed_text_format neg m e M E) as (i & f & z & -> & (Nu & D & _) & _). apply Forall_app in D as [Di Df]. split.
    + intros Q. apply app_eq_nil in Q as [_ Q]. apply app_eq_nil in Q as [_ Q]. discriminate.
    + apply Forall_app. split; [destruct neg; tokb|].
      apply Forall_app. split; [eapply Forall_impl; [|exact Di]; auto|].
      constructor; [right; reflexivity|]. eapply Forall_impl; [|exact Df]; auto.
Qed.

Lemma elems_list_ok l : Forall (text_ok true) l -> elems_ok true (elems_of_list l).
Proof.
  induction 1 as [|v l Hv Hl IH]; [constructor|]. cbn [elems_of_list elems_ok].
  split; [constructor|]. split; auto. split; [constructor|]. split; auto.
  destruct l; cbn; split; auto; discriminate.
Qed.
Lemma members_list_ok l : Forall (fun kv => body_ok (fst kv) /\ text_ok true (snd kv)) l -> members_ok true (members_of_list l).
Proof.
  induction 1 as [|[k v] l [Hk Hv] Hl IH]; [constructor|]. cbn [members_of_list members_ok fst snd] in *.
  split; [constructor|]. split; auto. split; [constructor|]. split; [constructor|]. split; auto.
  split; [destruct (is_token v); constructor|]. split; auto.
  destruct l as [|[k' v'] l]; cbn; split; auto; discriminate.
Qed.

Lemma jt_ok is64 d : proper is64 d -> writable d -> text_ok true (jt d).
Proof.
  induction d as [|s|y|l|l IH|l IH] using doc_ind'; intros P W.
  - cbn [jt text_ok]. apply token_ok_b; [discriminate|]. tokb.
  - inversion P; subst. inversion W as [|t [_ B]|? Fi N| | | |]; subst.
    + cbn [jt text_ok]. now apply body_esc.
    + assert (jt (DScal s) = JTok (scalar_json s)) as -> by (destruct s; auto; destruct (N s eq_refl)).
      cbn [text_ok]. destruct (scalar_token is64 s) as [A B]; auto. now apply token_ok_b.
  - inversion W as [| | |? [_ B]| | |]; subst. cbn [jt text_ok]. now apply body_esc.
  - inversion W as [| | | |? S| |]; subst. cbn [jt text_ok]. apply elems_list_ok. apply Forall_map.
    eapply Forall_impl; [|exact S]. intros t [_ B]. cbn [text_ok]. now apply body_esc.
  - inversion P; inversion W; subst. cbn [jt text_ok]. apply elems_list_ok. apply Forall_map.
    rewrite Forall_forall in *. intros x Hx. auto.
  - inversion P as [| | | | |? P']; inversion W as [| | | | | |? W']; subst. cbn [jt text_ok]. apply members_list_ok. apply Forall_map.
    rewrite Forall_forall in *. intros x Hx. cbn [fst snd]. destruct (W' x Hx) as (S & _ & Wx). split; auto.
    apply body_esc. apply S.
Qed.

(** ** What it denotes *)
Lemma squeeze_id t : Forall (fun c => is_digit c \/ tokenb c = true) t -> squeeze t = t.
Proof.
  unfold squeeze. induction 1 as [|c t H _ IH]; [reflexivity|]. cbn [filter].
  assert (ignored c = false) as ->.
  { assert (printable c /\ c <> c_bs) as [[R _] B]. { destruct H as [H|H]; [apply digit_token in H | apply tokenb_ok in H]; tauto. }
    unfold ignored. cbn. destruct (Ascii.eqb_spec c c_bs); [contradiction|].
    repeat match goal with |- context [Ascii.eqb c ?x] => destruct (Ascii.eqb_spec c x); [subst; cbn in R; lia|] end. reflexivity. }
  cbn [negb]. now rewrite IH.
Qed.
Lemma token_T0 t r : Forall (fun c => is_digit c \/ tokenb c = true) t -> lexeme t r -> T0 t = r.
Proof.
  intros F L. apply means_T0. split.
  - eapply Forall_impl; [|exact F]. intros c H. right. destruct H as [H|H]; [apply digit_token in H | apply tokenb_ok in H]; tauto.
  - now rewrite squeeze_id.
Qed.

Lemma no_overflow64 k m e z : normal_form k m e -> nearest_integer (units m e * 10 ^ 6) (2 ^ 1074) z ->
  ~ overflows F64 z (10 ^ 6).
Proof.
  intros NF [Z0 _] O. unfold overflows in O. cbn [prec emax] in O.
  assert (U : (units m e <= (2 ^ 53 - 1) * 2 ^ 971 * 2 ^ 1074)%Z).
  { destruct NF as [[M E] _]. unfold units.
    assert (m <= 2 ^ 53 - 1)%Z. { change (2 ^ 53)%Z with 9007199254740992%Z. destruct k; cbn [prec] in M; [change (2 ^ 24)%Z with 16777216%Z in M | change (2 ^ 53)%Z with 9007199254740992%Z in M]; lia. }
    assert (2 ^ (e + 1074) <= 2 ^ (971 + 1074))%Z. { apply Z.pow_le_mono_r; [lia|]. destruct k; cbn [emax] in E; lia. }
    rewrite (Z.pow_add_r 2 971 1074) in H0 by lia.
    assert (0 < 2 ^ (e + 1074))%Z. { apply pow2_pos. pose proof (emin_ge k). lia. }
    rewrite <- Z.mul_assoc. apply Z.mul_le_mono_nonneg; try assumption; [apply M | now apply Z.lt_le_incl]. }
  pose proof (pow2_pos 1074 ltac:(lia)) as P. pose proof (pow2_pos 971 ltac:(lia)) as Q.
  revert Z0 O U P Q. generalize (2 ^ 1074)%Z as A, (2 ^ 971)%Z as B, (units m e) as u. intros A B u Z0 O U P Q.
  change (2 ^ 53)%Z with 9007199254740992%Z in *. change (10 ^ 6)%Z with 1000000%Z in *.
  assert ((2 * 9007199254740992 - 1) * 1000000 * (B * A) <= 2 * (z * A))%Z by nia.
  assert (u <= 9007199254740991 * (B * A))%Z by lia.
  assert (A <= B * A)%Z by nia. lia.
Qed.

Lemma rounds_ex k neg n d : (0 <= n)%Z -> (0 < d)%Z -> exists f, rounds_to k neg n d f.
Proof. intros. eexists. now apply rounds_to_round. Qed.

Lemma fits_64 is64 k z : fits is64 k z -> (- 2 ^ 63 <= z < 2 ^ 64)%Z /\ True.
Proof.
  intros F. split; auto. unfold fits in F.
  destruct F as [[_ [A B]]|[_ [A B]]]; destruct k, is64; cbn [width] in *; lia.
Qed.

Lemma fraction_fixed i f z : numeral (i ++ f) z -> length f = 6 -> fraction (i ++ [c_dot] ++ f) z (10 ^ 6).
Proof.
  intros (N & D & E) L. apply Forall_app in D as [Di Df]. exists i, f, [], 0%Z. split; [now rewrite app_nil_r|].
  repeat split; auto.
  - left. auto.
  - lia.
  - now rewrite L.
Qed.

Lemma scalar_back is64 s : proper_scalar is64 s -> finite s -> (forall t, s <> SStr t) ->
  exists d, comes_back (DScal s) d /\ T0 (scalar_json s) = TokDoc d.
Proof.
  intros P F N. destruct (scalar_token is64 s P F N) as [_ TK].
  destruct s as [t|[]|k z|k [neg m e|[]|]]; cbn [finite] in F; try contradiction.
  - destruct (N t eq_refl).
  - eexists. split; [constructor|]. apply token_T0; [exact TK|constructor].
  - eexists. split; [constructor|]. apply token_T0; [exact TK|constructor].
  - cbn [scalar_json] in *. destruct (fits_64 _ _ _ P) as [R _].
    destruct (integer_text_format is64 k z P) as (u & E & Nu & _). rewrite E in TK |- *.
    destruct (Z.ltb_spec z 0) as [G|G].
    + destruct (narrow_signed_narrowest z) as (k' & _ & K); [lia|]. exists (DScal (SInt k' z)). split; [now apply cb_neg|].
      apply token_T0; [exact TK|]. rewrite Z.abs_neq in Nu by lia. cbn [sign app].
      pose proof (lx_neg u (- z) k' Nu) as L. rewrite Z.opp_involutive in L. auto.
    + destruct (narrow_unsigned_narrowest z) as (k' & _ & K); [lia|]. exists (DScal (SInt k' z)). split; [now apply cb_nat|].
      apply token_T0; [exact TK|]. rewrite Z.abs_eq in Nu by lia. cbn [sign app]. now apply lx_nat.
  - cbn [scalar_json proper_scalar] in *. pose proof P as P'. apply emin_range in P as [M E].
    destruct (fixed_text_format neg m e M E) as (i & f & z & Q & Nu & C & L & R). rewrite Q in TK |- *.
    pose proof (fraction_fixed i f z Nu L) as Fr. pose proof (numeral_nonneg _ _ Nu) as Z0.
    destruct (rounds_ex F32 neg z (10 ^ 6)) as (f32 & R32); [lia|lia|].
    destruct f32 as [f32|].
    + exists (DScal (SFlt F32 f32)). split; [eapply cb_flt32; eauto|].
      apply token_T0; [exact TK|]. eapply lx_float32; eauto.
    + destruct (rounds_ex F64 neg z (10 ^ 6)) as (f64 & R64); [lia|lia|].
      destruct f64 as [f64|].
      * exists (DScal (SFlt F64 f64)). split; [eapply cb_flt64; eauto|].
        apply token_T0; [exact TK|]. eapply lx_float64; eauto.
      * exfalso. destruct R64 as [[O _]|(_ & ? & ? & O & _)]; [|discriminate]. eapply no_overflow64; eauto.
Qed.

Lemma elems_list_value l ds : Forall2 (fun v d => value_of T0 v = (Some d, [])) l ds -> elems_of T0 (elems_of_list l) = (ds, []).
Proof.
  induction 1 as [|v d l ds H _ IH]; [reflexivity|]. cbn [elems_of_list]. rewrite elems_of_ECons, H, IH. reflexivity.
Qed.

Lemma members_list_value l ds : Forall2 (fun kv kd => value_of T0 (snd kv) = (Some (snd kd), []) /\ key_of (fst kv) (snd kv) = fst kd) l ds ->
  forall ms, NoDup (map fst (ms ++ ds)) -> members_of T0 ms (members_of_list l) = (ms ++ ds, []).
Proof.
  induction 1 as [|[k v] [k' d] l ds [H K] _ IH]; intros ms N.
  - now rewrite app_nil_r.
  - cbn [members_of_list fst snd] in *. rewrite members_of_MCons, H, K.
    assert (dict_set ms k' d = ms ++ [(k', d)]) as ->.
    { rewrite map_app in N. apply NoDup_remove_2 in N. clear - N.
      assert (~ In k' (map fst ms)) as N' by (intros Q; apply N, in_or_app; auto). clear N.
      induction ms as [|[a b] ms IH]; [reflexivity|]. cbn in *. destruct (str_eqb_spec a k') as [->|]; [tauto|].
      f_equal. apply IH. tauto. }
    rewrite IH by now rewrite <- app_assoc. cbn. now rewrite <- app_assoc.
Qed.

Lemma value_of_JStr T b : value_of T (JStr b) = (Some (DScal (SStr (unescape (latin1 b)))), []).
Proof. reflexivity. Qed.

Lemma esc_ascii s : Forall (fun c => (N_of_ascii c < 128)%N) s -> Forall (fun c => (N_of_ascii c < 128)%N) (esc s).
Proof.
  induction 1 as [|c s H _ IH]; [constructor|]. rewrite esc_cons. apply Forall_app. split; auto.
  destruct (Ascii.eqb c_dq c); repeat constructor; auto.
Qed.
Lemma string_back s : Forall (fun c => (N_of_ascii c < 128)%N) s -> unescape (latin1 (esc s)) = s.
Proof. intros H. rewrite latin1_ascii by now apply esc_ascii. now rewrite unescape_unesc, unesc_esc. Qed.

(** Distinct keys everywhere. *)
Inductive distinct : doc -> Prop :=
| di_null : distinct DNull
| di_scal s : distinct (DScal s)
| di_err t : distinct (DErr t)
| di_texts l : distinct (DTexts l)
| di_arr l : Forall distinct l -> distinct (DArr l)
| di_map l : NoDup (map fst l) -> Forall (fun kd => distinct (snd kd)) l -> distinct (DMap l).

Lemma rep_distinct tn h w F : impl h w ->
  (forall i d (_ : rep_obj tn w F i d), distinct d)
  /\ (forall o d (_ : rep_value tn w F o d), distinct d)
  /\ (forall l ds (_ : rep_elems tn w F l ds), Forall distinct ds)
  /\ (forall l ds (_ : rep_members tn w F l ds), Forall (fun kd => distinct (snd kd)) ds).
Proof.
  intros I. apply rep_mutind; intros; try (constructor; auto; fail); auto.
  constructor; auto. rewrite <- (rep_members_keys _ _ _ _ _ r).
  apply (im_map _ _ I) in e as (mo & _ & _ & _ & N & _). exact N.
Qed.

Lemma jt_kind d : is_container d \/ (forall k, key_of k (jt d) = unescape (latin1 k)).
Proof. destruct d as [|[]| | | |]; cbn [jt is_container]; auto; right; reflexivity. Qed.
Lemma jt_back is64 d : proper is64 d -> writable d -> distinct d ->
  exists d', comes_back d d' /\ value_of T0 (jt d) = (Some d', []).
Proof.
  induction d as [|s|y|l|l IH|l IH] using doc_ind'; intros P W D.
  - exists DNull. split; [constructor|]. cbn [jt]. rewrite value_of_JTok.
    rewrite (token_T0 (lit "null") (TokDoc DNull)); [reflexivity| |constructor]. tokb.
  - inversion P; subst. inversion W as [|t [A B]|? Fi N| | | |]; subst.
    + exists (DScal (SStr t)). split; [constructor|]. cbn [jt]. rewrite value_of_JStr. now rewrite string_back.
    + assert (jt (DScal s) = JTok (scalar_json s)) as -> by (destruct s; auto; destruct (N s eq_refl)).
      destruct (scalar_back is64 s) as (d & C & E); auto. exists d. split; auto. rewrite value_of_JTok, E. reflexivity.
  - inversion W as [| | |? [A B]| | |]; subst. exists (DScal (SStr y)). split; [constructor|]. cbn [jt]. rewrite value_of_JStr. now rewrite string_back.
  - inversion W as [| | | |? S| |]; subst. eexists. split; [apply cb_texts|]. cbn [jt]. rewrite value_of_JArr.
    rewrite (elems_list_value _ (map (fun t => DScal (SStr t)) l)); [reflexivity|]. clear - S.
    induction S as [|t l [A _] _ IH]; constructor; auto. rewrite value_of_JStr. now rewrite string_back.
  - inversion P as [| | | |? P'|]; inversion W as [| | | | |? W'|]; inversion D as [| | | |? D'|]; subst.
    assert (exists ds, Forall2 comes_back l ds /\ Forall2 (fun v d => value_of T0 v = (Some d, [])) (map jt l) ds) as (ds & C & V).
    { clear - IH P' W' D'. induction l as [|x l IHl]; [exists []; split; constructor|].
      inversion IH; inversion P'; inversion W'; inversion D'; subst.
      destruct IHl as (ds & C & V); auto. destruct H1 as (d & C1 & V1); auto.
      exists (d :: ds). split; constructor; auto. }
    exists (DArr ds). split; [now constructor|]. cbn [jt]. rewrite value_of_JArr, (elems_list_value _ ds V). reflexivity.
  - inversion P as [| | | | |? P']; inversion W as [| | | | | |? W']; inversion D as [| | | | |? N D']; subst.
    assert (exists ds, Forall2 (fun kd kd' => fst kd = fst kd' /\ comes_back (snd kd) (snd kd')) l ds
      /\ Forall2 (fun kv kd => value_of T0 (snd kv) = (Some (snd kd), []) /\ key_of (fst kv) (snd kv) = fst kd)
           (map (fun kd => (esc (fst kd), jt (snd kd))) l) ds /\ map fst ds = map fst l) as (ds & C & V & K).
    { clear - IH P' W' D'. induction l as [|[k x] l IHl]; [exists []; repeat split; constructor|].
      inversion IH; inversion P'; inversion W' as [|? ? (S & Q & Wx)]; inversion D'; subst. cbn [fst snd] in *.
      destruct IHl as (ds & C & V & K); auto. destruct H1 as (d & C1 & V1); auto.
      exists ((k, d) :: ds). split; [constructor; auto|]. split; [|cbn; congruence]. cbn [map]. constructor; auto. cbn [fst snd].
      split; auto. destruct S as [A B]. destruct (jt_kind x) as [G|G].
      - specialize (Q G). assert (key_of (esc k) (jt x) = latin1 (esc k)) as ->. { destruct x as [|[]| | | |]; auto; destruct G. }
        rewrite esc_nodq by auto. now apply latin1_ascii.
      - rewrite G. now apply string_back. }
    exists (DMap ds). split; [now constructor|]. cbn [jt]. rewrite value_of_JMap.
    rewrite (members_list_value _ ds V []); [reflexivity|]. cbn. now rewrite K.
Qed.

(** ** The round trip *)
Lemma round_trip X h F m d b h' :
  reachable X h -> escape_ok X -> rep_obj (x_typed_nil X) (view h) F (IMap m) d ->
  proper (x_is64 X) d -> writable d -> reachable X h' ->
  exists n s d', (forall fuel, n <= fuel -> map_ToJSONString fuel X h m (Some b) = Ok (Some (b ++ s), []))
    /\ shows d s /\ comes_back d d' /\ parses X h' s (GVal d').
Proof.
  intros R E Rep P W R'. pose proof (view_impl h (reachable_Inv _ _ R)) as I.
  destruct (map_json_rep X h (view h) F E I m d Rep) as (n & J).
  pose proof (proj1 (rep_distinct _ h _ F I) _ _ Rep) as D.
  destruct (jt_back _ d P W D) as (d' & C & V).
  exists n, (render d), d'. split; [|split; [|split]]; auto.
  - intros f L. cbn [map_ToJSONString]. rewrite (J f L). reflexivity.
  - eapply shows_render; eauto.
  - assert (exists l, d = DMap l) as (l & ->).
    { inversion Rep; subst; try discriminate; eauto. match goal with H : _ \/ _ |- _ => destruct H; discriminate end. }
    rewrite <- text_jt. cbn [jt] in *. rewrite value_of_JMap in V.
    pose proof (parse_any X h' (members_of_list (map (fun kd => (esc (fst kd), jt (snd kd))) l)) R') as Q.
    unfold outcome in Q. destruct (members_of T0 [] _) as [ms e] eqn:M. inversion V; subst.
    apply Q. apply strict_lenient. exact (jt_ok _ _ P W).
Qed.
