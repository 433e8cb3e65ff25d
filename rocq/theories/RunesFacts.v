(** * Facts about GetRunes *)
From Coq Require Import Ascii String List NArith ZArith Bool Lia ZifyN ZifyBool.
From Verif Require Import GoStr StrLemmas GoNum GoFloat Heap Common ValueModel ArrayModel MapModel GetterModel
  SpecDict SpecWorld SpecUtf8 Inv World Reach GetterFacts GetterLift GetterMore RunesModel.
Import ListNotations.
Local Open Scope N_scope.
Ltac Zify.zify_post_hook ::= Z.div_mod_to_equations.

Lemma N_of_ascii_lt a : N_of_ascii a < 256.
Proof. apply N_ascii_bounded. Qed.

Lemma ascii_val a n : n < 256 -> N_of_ascii a = n -> a = ascii_of_N n.
Proof. intros _ <-. symmetry. apply ascii_N_embedding. Qed.

Lemma byte_val n : n < 256 -> N_of_ascii (ascii_of_N n) = n.
Proof. intros H. apply N_ascii_embedding. lia. Qed.

Lemma byte_is a n : n = N_of_ascii a -> ascii_of_N n = a.
Proof. intros ->. apply ascii_N_embedding. Qed.

Ltac decide_ifs :=
  repeat match goal with
  | |- context [if ?b then _ else _] =>
      first [ replace b with true by lia | replace b with false by lia ]
  end.

(** Decoding an encoded code point. *)
Lemma decode_utf8 c t a u : scalar_value c -> utf8 c = a :: u -> decode_rune a (u ++ t) = (c, length u).
Proof.
  intros S E. unfold utf8 in E.
  assert (B : c < 1114112) by (unfold scalar_value in S; lia).
  assert (Ns : ~ (55296 <= c /\ c <= 57343)) by (unfold scalar_value in S; lia).
  destruct (N.ltb_spec c 128); [|destruct (N.ltb_spec c 2048); [|destruct (N.ltb_spec c 65536)]];
    cbn [map] in E; pose proof (f_equal (hd a) E) as E1; pose proof (f_equal (@tl _) E) as E2; cbn [hd tl] in E1, E2;
    subst a u; clear E; cbn [app length]; unfold decode_rune, tail_byte; cbv zeta;
    rewrite !byte_val by lia.
  - decide_ifs. reflexivity.
  - decide_ifs. f_equal; lia.
  - generalize (eq_refl c); intros _.
    destruct (N.eqb_spec (224 + c / 4096) 224), (N.eqb_spec (224 + c / 4096) 237);
    decide_ifs; f_equal; lia.
  - destruct (N.eqb_spec (240 + c / 262144) 240), (N.eqb_spec (240 + c / 262144) 244);
    decide_ifs; f_equal; lia.
Qed.

(** What a decoded prefix is. *)
Lemma decode_prefix a s c w : decode_rune a s = (c, w) ->
  (scalar_value c /\ a :: firstn w s = utf8 c /\ (w <= length s)%nat) \/ (c = 65533 /\ w = 0%nat).
Proof.
  pose proof (N_of_ascii_lt a) as La.
  unfold decode_rune. cbv zeta.
  repeat match goal with
  | |- (if ?b then _ else _) = _ -> _ => destruct b eqn:?
  | |- (match ?s with [] => _ | _ => _ end) = _ -> _ => destruct s
  end; intros E; injection E as <- <-; try (right; now split); left; unfold tail_byte in *;
  (split; [unfold scalar_value; lia|]; split; [|cbn [length]; lia]; cbn [firstn]; unfold utf8; decide_ifs; cbn [map];
   repeat f_equal; symmetry; apply byte_is; lia).
Qed.

(** ** Reading a whole string *)
Lemma range_skip : forall n s, range_runes n s = range_runes 0 (skipn n s).
Proof. induction n as [|n IH]; intros [|a s]; cbn [skipn]; auto. cbn [range_runes]. apply IH. Qed.

Lemma decode_invalid a s c w : decode_rune a s = (c, w) -> c = 65533 -> w = 0%nat ->
  forall c', scalar_value c' -> ~ begins_with (a :: s) (utf8 c').
Proof.
  intros D -> -> c' S [t E]. destruct (utf8 c') as [|b u] eqn:U.
  { revert U. unfold utf8. repeat match goal with |- context [if ?b then _ else _] => destruct b end; discriminate. }
  cbn [app] in E. injection E as -> ->. rewrite (decode_utf8 c' t b u S U) in D. injection D as -> L.
  destruct u; [|discriminate]. vm_compute in U. discriminate.
Qed.

Lemma reads_range : forall n s, (length s <= n)%nat -> reads_as s (range_runes 0 s).
Proof.
  induction n as [|n IH]; intros [|a s] L; try (cbn in L; lia); try constructor.
  cbn [range_runes]. destruct (decode_rune a s) as [c w] eqn:D. rewrite range_skip.
  destruct (decode_prefix a s c w D) as [(S & E & Lw)|[-> ->]].
  - assert (F : a :: s = utf8 c ++ skipn w s) by (rewrite <- E; cbn [app]; now rewrite firstn_skipn).
    rewrite F at 1. constructor; auto. apply IH. rewrite skipn_length. cbn in L. lia.
  - constructor; [eapply decode_invalid; eauto|]. apply IH. cbn in *. lia.
Qed.

Lemma reads_unique s cs : reads_as s cs -> cs = range_runes 0 s.
Proof.
  induction 1 as [|c s cs S _ IH|b s cs H _ IH]; auto.
  - destruct (utf8 c) as [|a u] eqn:U.
    { revert U. unfold utf8. repeat match goal with |- context [if ?b then _ else _] => destruct b end; discriminate. }
    cbn [app range_runes]. rewrite (decode_utf8 c s a u S U), range_skip, skipn_app, Nat.sub_diag, skipn_all. cbn [skipn app].
    now rewrite IH.
  - cbn [range_runes]. destruct (decode_rune b s) as [c w] eqn:D.
    destruct (decode_prefix b s c w D) as [(S & E & Lw)|[-> ->]]; [|now rewrite IH].
    exfalso. apply (H c S). exists (skipn w s). rewrite <- E. cbn [app]. now rewrite firstn_skipn.
Qed.

Lemma reads_utf8 cs : Forall scalar_value cs -> reads_as (utf8_text cs) cs.
Proof. unfold utf8_text. induction 1; cbn [flat_map]; now constructor. Qed.

(** ** GetRunes on a map *)
Lemma runes_of_string X h m k t :
  reachable X h -> has (w_map (view h)) m -> scalar_at (view h) m k = Some (SStr t) ->
  map_GetRunes X h m k = Ok (GVal (Some (range_runes 0 t))).
Proof.
  intros R Hm Hs. destruct (present X h m k (SStr t) R Hm Hs) as (v & i & Hv & D & _ & _ & Vi).
  unfold map_GetRunes. rewrite Vi. unfold value_GetRunes. rewrite (proj2 (rd_val_iff _ _ _) Hv). cbn [rbind].
  destruct D as [-> |(p & -> & Hp)]; [reflexivity|].
  cbn [stype_of]. unfold iface_IsNil. cbn. now rewrite (proj2 (rd_ptr_iff _ _ _) Hp).
Qed.

Lemma get_runes X h m k t :
  reachable X h -> has (w_map (view h)) m -> scalar_at (view h) m k = Some (SStr t) ->
  exists cs, map_GetRunes X h m k = Ok (GVal (Some cs)) /\ reads_as t cs /\ (forall cs', reads_as t cs' -> cs' = cs).
Proof.
  intros R Hm Hs. eexists. split; [eapply runes_of_string; eauto|]. split.
  - eapply reads_range. apply le_n.
  - intros cs'. apply reads_unique.
Qed.

Lemma get_runes_text X h m k cs :
  reachable X h -> has (w_map (view h)) m -> Forall scalar_value cs ->
  scalar_at (view h) m k = Some (SStr (utf8_text cs)) ->
  map_GetRunes X h m k = Ok (GVal (Some cs)).
Proof.
  intros R Hm F Hs. rewrite (runes_of_string X h m k _ R Hm Hs).
  now rewrite <- (reads_unique _ _ (reads_utf8 cs F)).
Qed.

Lemma get_runes_other X h m k :
  reachable X h -> has (w_map (view h)) m ->
  (absent (view h) m k = true -> map_GetRunes X h m k = Ok (GVal None))
  /\ (forall s, scalar_at (view h) m k = Some s -> (forall t, s <> SStr t) ->
        exists e, map_GetRunes X h m k = Ok (GErr [e]))
  /\ (forall i, object_at (view h) m k = Some i -> cat_of (view h) i = Some CatMap \/ cat_of (view h) i = Some CatArr ->
        exists e, map_GetRunes X h m k = Ok (GErr [e])).
Proof.
  intros R Hm. pose proof (reachable_Inv _ _ R) as I. split; [|split].
  - intros A. unfold map_GetRunes. now apply map_via_absent.
  - intros s Hs N. destruct (present X h m k s R Hm Hs) as (v & i & Hv & D & _ & _ & Vi).
    unfold map_GetRunes. rewrite Vi. unfold value_GetRunes. rewrite (proj2 (rd_val_iff _ _ _) Hv). cbn [rbind].
    destruct s as [t|b|kd z|fk f]; [now destruct (N t)| | |];
      (destruct D as [-> |(p & -> & Hp)]; unfold iface_IsNil; cbn; try destruct kd; try destruct fk; cbn; eauto).
  - intros i Ho C. assert (N : nil_object i = false).
    { destruct C as [C|C]; eapply cat_not_nil; eauto. }
    destruct (map_via_present h I m k i Hm Ho N) as (v & Hv & Oi & _ & Vi).
    unfold map_GetRunes. rewrite Vi. unfold value_GetRunes. rewrite (proj2 (rd_val_iff _ _ _) Hv). cbn [rbind].
    assert (K : match i with IMap _ | IPMap (Some _) | IArr _ | IPArr (Some _) => True | _ => False end).
    { destruct C as [C|C]; revert C; unfold cat_of; destruct i as [|s|t [p|]|z|[z|]|z|[z|]|z|[z|]| | |[?|]|[?|]| |[?|]| | |[?|]|[?|]|? [?|]]; cbn; auto; try discriminate;
      try (destruct s; discriminate); destruct (nth_error h p) as [[[]| | |]|]; discriminate. }
    destruct i as [|s|t [p|]|z|[z|]|z|[z|]|z|[z|]| | |[?|]|[?|]| |[?|]| | |[?|]|[?|]|? [?|]]; try contradiction; unfold iface_IsNil; cbn; eauto.
Qed.
