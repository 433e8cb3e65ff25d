(** * Serialisation: the statements *)
From Coq Require Import Ascii String List NArith ZArith Bool Lia.
From Verif Require Import GoStr GoNum GoFloat Heap Common ValueModel ArrayModel MapModel JsonModel ParserModel
  StrLemmas SpecDict DictLemmas SpecNum NumLemmas SpecWorld Inv World Reach SpecFloat FloatFacts SpecDoc RepFacts
  SpecText SpecToken TreeParser ParseWorld ParseRefine ParseTop TextRun TokenFacts SpecParse ParseFacts PosFacts TypedFacts TidyFacts
  TextDec ParseMore SpecRender RenderFacts ShowFacts CycleFacts SpecRound RoundFacts StableFacts RoundMore SpecUtf8 SpecJson JsonFacts.
Import ListNotations.

(** ** The text of a map and of an array *)
Lemma map_text X h F m d b : reachable X h -> escape_ok X -> rep_obj (x_typed_nil X) (view h) F (IMap m) d ->
  proper (x_is64 X) d ->
  exists n s, shows d s /\ forall fuel, n <= fuel -> map_ToJSONString fuel X h m (Some b) = Ok (Some (b ++ s), []).
Proof.
  intros R E Rep P. pose proof (view_impl h (reachable_Inv _ _ R)) as I.
  destruct (map_json_rep X h (view h) F E I m d Rep) as (n & J). exists n, (render d).
  split; [eapply shows_render; eauto|]. intros f L. cbn [map_ToJSONString]. rewrite (J f L). reflexivity.
Qed.
Lemma arr_text X h F a d b : reachable X h -> escape_ok X -> rep_obj (x_typed_nil X) (view h) F (IArr a) d ->
  proper (x_is64 X) d ->
  exists n s, shows d s /\ forall fuel, n <= fuel -> arr_ToJSONString fuel X h a (Some b) = Ok (Some (b ++ s), []).
Proof.
  intros R E Rep P. pose proof (view_impl h (reachable_Inv _ _ R)) as I.
  destruct (arr_json_rep X h (view h) F E I a d Rep) as (n & J). exists n, (render d).
  split; [eapply shows_render; eauto|]. intros f L. cbn [arr_ToJSONString]. rewrite (J f L). reflexivity.
Qed.

(** ** Writing what was read *)
Lemma write_read X h F m d b h' b' :
  reachable X h -> escape_ok X -> rep_obj (x_typed_nil X) (view h) F (IMap m) d ->
  proper (x_is64 X) d -> writable d -> no_float64 d -> reachable X h' ->
  exists n s m' h2,
    (forall fuel, n <= fuel -> map_ToJSONString fuel X h m (Some b) = Ok (Some (b ++ s), []))
    /\ Parse X s h' = Ok (GVal (Some m'), h2)
    /\ (forall fuel, n <= fuel -> map_ToJSONString fuel X h2 m' (Some b') = Ok (Some (b' ++ s), [])).
Proof.
  intros R E Rep P W N R'. destruct (round_trip X h F m d b h' R E Rep P W R') as (n & s & d' & J & S & C & h2 & m' & Q & R2 & _ & Rep2 & _).
  destruct (map_text X h2 _ m' d' b' R2 E (proj1 (rep_false_any _ _ _) _ _ Rep2) (comes_back_proper _ _ _ C)) as (n2 & s2 & S2 & J2).
  assert (s2 = s) as -> by (eapply shows_fun; [exact S2|]; eapply comes_back_shows; eauto).
  exists (n + n2), s, m', h2. split; [|split; auto]; intros f L; [apply J | apply J2]; lia.
Qed.

Lemma second_trip X h F m d b h' b' h'' :
  reachable X h -> escape_ok X -> rep_obj (x_typed_nil X) (view h) F (IMap m) d ->
  proper (x_is64 X) d -> writable d -> reachable X h' -> reachable X h'' ->
  exists n s d' m' h2 s2,
    (forall fuel, n <= fuel -> map_ToJSONString fuel X h m (Some b) = Ok (Some (b ++ s), []))
    /\ Parse X s h' = Ok (GVal (Some m'), h2) /\ rep_obj NoNils (view h2) (new_in h') (IMap m') d'
    /\ (forall fuel, n <= fuel -> map_ToJSONString fuel X h2 m' (Some b') = Ok (Some (b' ++ s2), []))
    /\ parses X h'' s2 (GVal d').
Proof.
  intros R E Rep P W R' R''. destruct (round_trip X h F m d b h' R E Rep P W R') as (n & s & d' & J & S & C & h2 & m' & Q & R2 & _ & Rep2 & _).
  destruct (round_trip X h2 _ m' d' b' h'' R2 E (proj1 (rep_false_any _ _ _) _ _ Rep2) (comes_back_proper _ _ _ C)
    (comes_back_writable _ _ W C) R'') as (n2 & s2 & d2 & J2 & _ & C2 & Q2).
  assert (d2 = d') as -> by (eapply comes_back_fun; [exact C2|]; eapply comes_back_again; eauto).
  exists (n + n2), s, d', m', h2, s2. split; [intros f L; apply J; lia|]. split; auto. split; auto. split; auto.
  intros f L; apply J2; lia.
Qed.

(** ** Termination *)
Lemma nofuel_rbind {A B} (r : res A) (f : A -> B) : (x <-r r ;; Ok (f x)) = NoFuel <-> r = NoFuel.
Proof. destruct r; cbn; split; congruence. Qed.

Lemma map_terminates X h m b : reachable X h -> has (w_map (view h)) m -> acyclic (view h) m ->
  exists n r, r <> NoFuel /\ forall fuel, n <= fuel -> map_ToJSONString fuel X h m b = r.
Proof.
  intros R [d Hm] A. pose proof (reachable_Inv _ _ R) as V. pose proof (view_impl h V) as I.
  destruct b as [b|]; [|exists 0, (Ok (None, [EBuilder])); split; [discriminate|reflexivity]].
  set (n := S (length h)). exists n, (map_ToJSONString n X h m (Some b)).
  pose proof (acyclic_fuel X h (view h) I V m n (or_introl (ex_intro _ d Hm)) A (le_n _)) as T.
  split.
  - intros Q. cbn [map_ToJSONString] in Q. apply nofuel_rbind in Q. apply T. unfold conv_cont. now rewrite Hm.
  - intros f L. cbn [map_ToJSONString]. f_equal.
    pose proof (conv_cont_more X h (view h) n (f - n) m T) as M. unfold conv_cont in M. rewrite Hm in M.
    now replace (f - n + n) with f in M by lia.
Qed.
Lemma arr_terminates X h a b : reachable X h -> has (w_arr (view h)) a -> acyclic (view h) a ->
  exists n r, r <> NoFuel /\ forall fuel, n <= fuel -> arr_ToJSONString fuel X h a b = r.
Proof.
  intros R [l Ha] A. pose proof (reachable_Inv _ _ R) as V. pose proof (view_impl h V) as I.
  destruct b as [b|]; [|exists 0, (Ok (None, [EBuilder])); split; [discriminate|reflexivity]].
  set (n := S (length h)). exists n, (arr_ToJSONString n X h a (Some b)).
  pose proof (acyclic_fuel X h (view h) I V a n (or_intror (ex_intro _ l Ha)) A (le_n _)) as T.
  assert (Nm : w_map (view h) a = None).
  { destruct (w_map (view h) a) as [d|] eqn:D; auto. exfalso.
    apply (im_map _ _ I) in D as (mo & D & _). apply (im_arr _ _ I) in Ha as [Ha _]. congruence. }
  split.
  - intros Q. cbn [arr_ToJSONString] in Q. apply nofuel_rbind in Q. apply T. unfold conv_cont. now rewrite Nm.
  - intros f L. cbn [arr_ToJSONString]. f_equal.
    pose proof (conv_cont_more X h (view h) n (f - n) a T) as M. unfold conv_cont in M. rewrite Nm in M.
    now replace (f - n + n) with f in M by lia.
Qed.

Lemma map_diverges X h m b : reachable X h -> escape_ok X -> x_typed_nil X = true ->
  (exists p c q, object_at (view h) m p c /\ object_at (view h) c q c /\ q <> []) -> has (w_map (view h)) m ->
  forall fuel, map_ToJSONString fuel X h m (Some b) = NoFuel.
Proof.
  intros R E T C [d Hm] f. pose proof (reachable_Inv _ _ R) as V. pose proof (view_impl h V) as I.
  cbn [map_ToJSONString]. apply nofuel_rbind.
  pose proof (endless_nofuel X h (view h) I V f E T m C) as Q. unfold conv_cont in Q. now rewrite Hm in Q.
Qed.

Lemma map_halts_iff X h m b : reachable X h -> escape_ok X -> x_typed_nil X = true -> has (w_map (view h)) m ->
  ((exists n, map_ToJSONString n X h m (Some b) <> NoFuel) <-> acyclic (view h) m).
Proof.
  intros R E T Hm. split.
  - intros (n & N) p x q P Q. destruct q as [|y q]; auto. exfalso. apply N.
    apply map_diverges; auto. exists p, x, (y :: q). repeat split; auto. discriminate.
  - intros A. destruct (map_terminates X h m (Some b) R Hm A) as (n & r & N & H). exists n. now rewrite H.
Qed.

(** ** Strings ending in a backslash *)
Lemma outside_esc s : forall p rest, s <> [] ->
  snd (outside (Some p) true (esc s ++ rest)) = snd (outside (Some (last s c_nl)) true rest).
Proof.
  induction s as [|c s IH]; intros p rest N; [destruct (N eq_refl)|]. rewrite esc_cons.
  assert (Hl : forall r, s = [] -> snd (outside (Some c) true (esc s ++ r)) = snd (outside (Some (last (c :: s) c_nl)) true r)) by (intros r ->; reflexivity).
  assert (H : snd (outside (Some c) true (esc s ++ rest)) = snd (outside (Some (last (c :: s) c_nl)) true rest)).
  { destruct s as [|d s]; [apply Hl; reflexivity|]. rewrite (IH c rest) by (auto; discriminate). reflexivity. }
  destruct (Ascii.eqb_spec c_dq c) as [<-|Nc].
  - rewrite <- app_assoc. change ([c_bs; c_dq] ++ esc s ++ rest) with (c_bs :: c_dq :: (esc s ++ rest)). cbn [outside].
    change (Ascii.eqb c_bs c_dq) with false. cbn [andb]. change (Ascii.eqb c_dq c_dq) with true. change (Ascii.eqb c_bs c_bs) with true. cbn [negb andb].
    destruct (outside (Some c_dq) true (esc s ++ rest)) as [o q]. cbn [snd] in *. exact H.
  - cbn [app outside]. destruct (Ascii.eqb_spec c c_dq) as [->|_]; [congruence|]. cbn [andb].
    destruct (outside (Some c) true (esc s ++ rest)) as [o q]. cbn [snd] in *. exact H.
Qed.

Lemma outside_quote s rest : safe s -> snd (outside (Some c_dq) true (esc s ++ c_dq :: rest)) = snd (outside (Some c_dq) false rest).
Proof.
  intros [_ B]. destruct s as [|c s].
  - reflexivity.
  - rewrite outside_esc by (auto; discriminate). cbn [outside]. change (Ascii.eqb c_dq c_dq) with true.
    destruct (Ascii.eqb_spec (last (c :: s) c_nl) c_bs) as [E|_].
    + exfalso. destruct (exists_last (l := c :: s)) as (u & x & Q); [discriminate|]. rewrite Q in E.
      rewrite last_last in E. apply (B u). congruence.
    + reflexivity.
Qed.

Lemma backslash_text k t : safe k ->
  snd (outside None false (render (DMap [(k, DScal (SStr (t ++ [c_bs])))]))) = true.
Proof.
  intros K. cbn [render map fst snd commas scalar_json]. rewrite <- (quote_quoted (t ++ [c_bs])), !quote_esc, <- !app_assoc.
  cbn [app]. cbn [outside]. change (Ascii.eqb c_lb c_dq) with false. cbn [andb].
  change (Ascii.eqb c_dq c_dq) with true. change (Ascii.eqb c_lb c_bs) with false. cbn [negb andb].
  match goal with |- context [outside (Some c_dq) true ?r] => destruct (outside (Some c_dq) true r) as [o q] eqn:Q; pose proof (f_equal snd Q) as Q' end.
  cbn [snd] in *. rewrite outside_quote in Q' by auto. rewrite <- Q'. clear.
  cbn [outside]. change (Ascii.eqb c_col c_dq) with false. cbn [andb].
  change (Ascii.eqb c_dq c_dq) with true. change (Ascii.eqb c_col c_bs) with false. cbn [negb andb].
  match goal with |- context [outside (Some c_dq) true ?r] => destruct (outside (Some c_dq) true r) as [o q] eqn:Q; pose proof (f_equal snd Q) as Q' end.
  cbn [snd] in *. rewrite <- Q'. clear.
  rewrite outside_esc by (destruct t; discriminate). rewrite last_last. reflexivity.
Qed.

Lemma backslash_lost X h F m b k t : reachable X h -> escape_ok X ->
  rep_obj (x_typed_nil X) (view h) F (IMap m) (DMap [(k, DScal (SStr (t ++ [c_bs])))]) -> safe k ->
  exists n s, (forall fuel, n <= fuel -> map_ToJSONString fuel X h m (Some b) = Ok (Some (b ++ s), []))
    /\ forall h' m' h2, reachable X h' -> Parse X s h' <> Ok (GVal m', h2).
Proof.
  intros R E Rep K. pose proof (view_impl h (reachable_Inv _ _ R)) as I.
  destruct (map_json_rep X h (view h) F E I m _ Rep) as (n & J).
  exists n, (render (DMap [(k, DScal (SStr (t ++ [c_bs])))])). split.
  - intros f L. cbn [map_ToJSONString]. rewrite (J f L). reflexivity.
  - intros h' m' h2 R' Q. pose proof (parse_balance X h' _ m' h2 R' Q) as B. pose proof (backslash_text k t K) as T.
    destruct (outside None false _) as [o q]. cbn [snd] in T. destruct B as (_ & _ & B). congruence.
Qed.

Lemma string_kept X h F m b k t h' : reachable X h -> escape_ok X ->
  rep_obj (x_typed_nil X) (view h) F (IMap m) (DMap [(k, DScal (SStr t))]) -> safe k -> safe t -> reachable X h' ->
  exists n s, (forall fuel, n <= fuel -> map_ToJSONString fuel X h m (Some b) = Ok (Some (b ++ s), []))
    /\ parses X h' s (GVal (DMap [(k, DScal (SStr t))])).
Proof.
  intros R E Rep K T R'.
  destruct (round_trip X h F m _ b h' R E Rep) as (n & s & d' & J & _ & C & Q); auto.
  - repeat constructor.
  - constructor. constructor; [|constructor]. split; auto. split; [intros []|]. now constructor.
  - exists n, s. split; auto. inversion C as [| | | | | | | | | |? l H]; subst. inversion H as [|? [k' d2] ? ? [Ek Ed] H2]; subst.
    inversion H2; subst. cbn [fst snd] in *. inversion Ed; subst. exact Q.
Qed.

Lemma float_text X h F m b k fk neg a e :
  reachable X h -> escape_ok X -> rep_obj (x_typed_nil X) (view h) F (IMap m) (DMap [(k, DScal (SFlt fk (FFin neg a e)))]) ->
  normal_form fk a e ->
  exists n t, fixed_text neg a e t
    /\ forall fuel, n <= fuel -> map_ToJSONString fuel X h m (Some b) = Ok (Some (b ++ [c_lb] ++ quote k ++ [c_col] ++ t ++ [c_rb]), []).
Proof.
  intros R E Rep N. destruct (map_text X h F m _ b R E Rep) as (n & s & S & J).
  - constructor. constructor; [|constructor]. now constructor.
  - inversion S as [| | | | | | | | | | | |? ts S']; subst. inversion S' as [|? t ? ? S1 S2]; subst. inversion S2; subst.
    cbn [snd] in S1. inversion S1; subst. exists n, t. split; auto. intros f L. rewrite (J f L).
    cbn [map fst snd combine commas]. rewrite <- !app_assoc. reflexivity.
Qed.

Lemma float_stable X h F m b k neg a e h' b' :
  reachable X h -> escape_ok X -> rep_obj (x_typed_nil X) (view h) F (IMap m) (DMap [(k, DScal (SFlt F32 (FFin neg a e)))]) ->
  normal_form F32 a e -> safe k -> reachable X h' ->
  exists n s m' h2,
    (forall fuel, n <= fuel -> map_ToJSONString fuel X h m (Some b) = Ok (Some (b ++ s), []))
    /\ Parse X s h' = Ok (GVal (Some m'), h2)
    /\ (forall fuel, n <= fuel -> map_ToJSONString fuel X h2 m' (Some b') = Ok (Some (b' ++ s), [])).
Proof.
  intros R E Rep N K R'. apply (write_read X h F m _ b h' b' R E Rep); auto.
  - constructor. constructor; [|constructor]. now constructor.
  - constructor. constructor; [|constructor]. split; auto. split; [intros []|]. apply wr_scal; [exact I|discriminate].
  - constructor. constructor; [|constructor]. constructor. discriminate.
Qed.

Lemma text_valid X h F m d b : reachable X h -> escape_ok X -> rep_obj (x_typed_nil X) (view h) F (IMap m) d ->
  proper (x_is64 X) d -> valid d ->
  exists n s, json_text s /\ forall fuel, n <= fuel -> map_ToJSONString fuel X h m (Some b) = Ok (Some (b ++ s), []).
Proof.
  intros R E Rep P V. destruct (map_text X h F m d b R E Rep P) as (n & s & S & J). exists n, s. split; auto.
  exists [], s, []. rewrite app_nil_r. split; [reflexivity|]. split; [apply ws_nil|]. split; [eapply valid_output; eauto|apply ws_nil].
Qed.
