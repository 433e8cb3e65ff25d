(** * GetArrayOfT: element by element *)
From Coq Require Import Ascii String List NArith ZArith Bool Lia.
From Verif Require Import GoStr StrLemmas GoNum GoFloat Heap Common ValueModel ArrayModel MapModel
  GetterModel SpecDict DictLemmas SpecWorld SpecNum SpecArray NumLemmas Inv World Reach MapFacts GetterFacts
  GetterFrame GetterLift GetterMore.
Import ListNotations.
Local Open Scope Z_scope.

(** ** Collecting *)

Definition proper {A} (r : gres A) : Prop := r <> GErr [].

Lemma collected_finish {A} (rs : list (gres A)) :
  Forall proper rs ->
  let q := fold_right (fun r q => match r with GVal x => (x :: fst q, snd q) | GErr e => (fst q, e ++ snd q) end)
             ([], []) rs in
  collected rs (finish q).
Proof.
  intros F. cbn zeta.
  assert (H : exists xs es, fold_right (fun r q => match r with GVal x => (x :: fst q, snd q) | GErr e => (fst q, e ++ snd q) end)
             ([], []) rs = (xs, es) /\ es = concat (map errors_of rs)
             /\ (es = [] -> rs = map GVal xs) /\ (es <> [] -> exists e, In (GErr e) rs)).
  { induction F as [|r rs Pr F (xs & es & E & Ee & H0 & H1)].
    - exists [], []. repeat split; auto. congruence.
    - cbn [fold_right]. rewrite E. destruct r as [x|e]; cbn [fst snd].
      + exists (x :: xs), es. repeat split; auto.
        * intros Z. cbn. now rewrite (H0 Z).
        * intros Z. destruct (H1 Z) as [e He]. exists e. now right.
      + exists xs, (e ++ es). repeat split.
        * cbn. now rewrite Ee.
        * intros Z. apply app_eq_nil in Z as [Z _]. subst e. now destruct Pr.
        * intros _. exists e. now left. }
  destruct H as (xs & es & E & Ee & H0 & H1). rewrite E. unfold finish. cbn [fst snd].
  destruct es as [|e0 es0] eqn:D.
  - left. exists xs. auto.
  - right. split; [apply H1; discriminate|]. now rewrite Ee.
Qed.

Lemma collect_ptr_own {A} (get : nat -> res (gres (option A))) l rs :
  Forall2 (own get) l rs ->
  collect_ptr get l = Ok (fold_right (fun r q => match r with GVal x => (x :: fst q, snd q) | GErr e => (fst q, e ++ snd q) end)
             ([], []) rs).
Proof.
  induction 1 as [|o r l rs H F IH]; cbn [collect_ptr fold_right]; auto.
  destruct o as [v|]; cbn in H.
  - rewrite H. cbn [rbind]. rewrite IH. cbn [rbind]. reflexivity.
  - subst r. rewrite IH. reflexivity.
Qed.
Lemma collect_val_own {A} (get : nat -> res (gres A)) l rs :
  Forall2 (own_value get) l rs ->
  collect_val get l = Ok (fold_right (fun r q => match r with GVal x => (x :: fst q, snd q) | GErr e => (fst q, e ++ snd q) end)
             ([], []) rs).
Proof.
  induction 1 as [|o r l rs H F IH]; cbn [collect_val fold_right]; auto.
  destruct o as [v|]; cbn in H.
  - rewrite H. cbn [rbind]. rewrite IH. cbn [rbind]. reflexivity.
  - subst r. rewrite IH. reflexivity.
Qed.

(** ** The getters never answer an empty list of errors *)
Lemma conv_string_proper X h i r : conv_string X h i = Ok r -> proper r.
Proof.
  unfold conv_string, proper. intros H Z. subst r.
  destruct (common_IsNil i); [discriminate|].
  assert (G : forall tv, conv_held X h tv <> Ok (GErr [])).
  { intros tv. unfold conv_held. destruct (common_GetType X tv); try discriminate.
    - destruct (deref h tv) as [[[]|]| | |]; cbn [rbind]; discriminate.
    - destruct (deref h tv) as [[[]|]| | |]; cbn [rbind]; discriminate.
    - destruct tv; try discriminate. destruct (rd_val h v); cbn [rbind]; discriminate.
    - destruct tv; try discriminate. destruct v as [n|]; try discriminate. destruct (rd_val h n); cbn [rbind]; discriminate.
    - destruct tv as [| | | | | | | | | | | | | |[[]|]| | | | |]; discriminate.
    - destruct tv as [| | | | | | | | | | | | | |[[]|]| | | | |]; discriminate.
    - destruct tv as [| | | | | | | | | | | | | | | | | |[]|]; discriminate.
    - repeat match goal with |- context [if ?b then _ else _] => destruct b end; discriminate. }
  revert H. match goal with |- rbind ?e _ = _ -> _ => destruct e as [tv| | |] end; cbn [rbind]; try discriminate.
  apply G.
Qed.

Ltac noempty := let Z := fresh in intros Z; try discriminate Z.

Lemma GetInt64_proper X h v r : value_GetInt64 X h v = Ok r -> proper r.
Proof.
  unfold value_GetInt64. intros H.
  destruct (rd_val h v) as [i| | |]; cbn [rbind] in H; try discriminate.
  destruct (iface_IsNil X i); [injection H as <-; discriminate|].
  assert (D : forall o, Ok (match o with Some s => scalar_int64 s | None => GErr [EType] end) = Ok r -> proper r).
  { intros [s|] E; injection E as <-; [|discriminate]. unfold proper, scalar_int64.
    destruct s as [t|b|k z|w f]; try discriminate.
    - destruct (parse_int 64 t); discriminate.
    - destruct k; try discriminate. destruct (_ <? _); discriminate. }
  assert (C : forall z, (q <-r conv_string X h (IVal z) ;;
           Ok (match q with
               | GErr e => GErr e
               | GVal t => match parse_int 64 t with
                           | Some z => GVal (Some z)
                           | None => GErr [EConv]
                           end
               end)) = Ok r -> proper r).
  { intros z E. destruct (conv_string X h (IVal z)) as [q| | |] eqn:Q; cbn [rbind] in E; try discriminate.
    pose proof (conv_string_proper _ _ _ _ Q) as P. injection E as <-. destruct q as [t|e].
    - destruct (parse_int 64 t); discriminate.
    - intros Z. apply P. injection Z as ->. reflexivity. }
  destruct i as [| |t [p|]|z|[z|]|z|[z|]|z|[z|]| | |[?|]|[?|]| |[?|]| | |[?|]|[?|]|? [?|]];
    try (destruct (deref _ _) as [o| | |]; cbn [rbind] in H; try discriminate; now apply (D o));
    eapply C; exact H.
Qed.

Lemma GetUInt64_proper X h v r : value_GetUInt64 X h v = Ok r -> proper r.
Proof.
  unfold value_GetUInt64. intros H.
  destruct (rd_val h v) as [i| | |]; cbn [rbind] in H; try discriminate.
  destruct (iface_IsNil X i); [injection H as <-; discriminate|].
  destruct (deref h i) as [[s|]| | |]; cbn [rbind] in H; try discriminate; injection H as <-; [|discriminate].
  unfold proper, scalar_uint64. destruct s as [t|b|k z|w f]; try discriminate.
  - destruct (str_eqb _ _); [discriminate|]. destruct (parse_uint 64 t); discriminate.
  - destruct k; try discriminate; destruct (0 <=? z); discriminate.
Qed.

Lemma narrow_proper lo hi r : proper r -> proper (narrow lo hi r).
Proof. intros P. destruct r as [[z|]|e]; cbn; auto. destruct (_ || _); discriminate. Qed.
Lemma to_value_proper {A} (r : gres (option A)) : proper r -> proper (to_value r).
Proof.
  intros P. destruct r as [[z|]|e]; cbn; try discriminate. intros Z. apply P. injection Z as ->. reflexivity.
Qed.

Lemma GetIntKind_proper k X h v r : value_GetIntKind k X h v = Ok r -> proper r.
Proof.
  assert (S : forall lo hi r, (q <-r value_GetInt64 X h v ;; Ok (narrow lo hi q)) = Ok r -> proper r).
  { intros lo hi q H. destruct (value_GetInt64 X h v) eqn:E; cbn [rbind] in H; try discriminate.
    injection H as <-. eapply narrow_proper, GetInt64_proper, E. }
  assert (U : forall lo hi r, (q <-r value_GetUInt64 X h v ;; Ok (narrow lo hi q)) = Ok r -> proper r).
  { intros lo hi q H. destruct (value_GetUInt64 X h v) eqn:E; cbn [rbind] in H; try discriminate.
    injection H as <-. eapply narrow_proper, GetUInt64_proper, E. }
  destruct k; cbn [value_GetIntKind]; unfold value_GetInt, value_GetInt8, value_GetInt16,
      value_GetInt32, value_GetUInt8, value_GetUInt16, value_GetUInt32; eauto using GetInt64_proper, GetUInt64_proper.
  - destruct (x_is64 X); eauto using GetInt64_proper.
  - discriminate.
Qed.
Lemma GetIntKindValue_proper k X h v r : value_GetIntKindValue k X h v = Ok r -> proper r.
Proof.
  unfold value_GetIntKindValue. intros H. destruct (value_GetIntKind k X h v) eqn:E; cbn [rbind] in H; try discriminate.
  injection H as <-. eapply to_value_proper, GetIntKind_proper, E.
Qed.

Lemma GetFloat64_proper X h v r : value_GetFloat64 X h v = Ok r -> proper r.
Proof.
  unfold value_GetFloat64. intros H.
  destruct (rd_val h v) as [i| | |]; cbn [rbind] in H; try discriminate.
  destruct (iface_IsNil X i); [injection H as <-; discriminate|].
  destruct (deref h i) as [[s|]| | |]; cbn [rbind] in H; try discriminate; injection H as <-; [|discriminate].
  unfold proper, scalar_float64. destruct s as [t|b|k z|[|] f]; try discriminate.
  destruct (parse_float F64 t); discriminate.
Qed.
Lemma GetFloat64Value_proper X h v r : value_GetFloat64Value X h v = Ok r -> proper r.
Proof.
  unfold value_GetFloat64Value. intros H. destruct (value_GetFloat64 X h v) eqn:E; cbn [rbind] in H; try discriminate.
  injection H as <-. eapply to_value_proper, GetFloat64_proper, E.
Qed.
Lemma narrow32_proper f : proper (narrow_float32 f).
Proof. unfold narrow_float32. destruct (parse_float F32 (format_f f)); discriminate. Qed.
Lemma GetFloat32_proper X h v r : value_GetFloat32 X h v = Ok r -> proper r.
Proof.
  unfold value_GetFloat32. intros H. destruct (value_GetFloat64 X h v) as [q| | |] eqn:E; cbn [rbind] in H; try discriminate.
  pose proof (GetFloat64_proper _ _ _ _ E) as P.
  injection H as <-. destruct q as [[f|]|e]; try discriminate.
  - pose proof (narrow32_proper f) as Q. destruct (narrow_float32 f) as [g|e]; [discriminate|].
    intros Z. apply Q. now injection Z as ->.
  - intros Z. apply P. now injection Z as ->.
Qed.
Lemma GetFloat32Value_proper X h v r : value_GetFloat32Value X h v = Ok r -> proper r.
Proof.
  unfold value_GetFloat32Value. intros H. destruct (value_GetFloat64 X h v) as [q| | |] eqn:E; cbn [rbind] in H; try discriminate.
  pose proof (to_value_proper _ (GetFloat64_proper _ _ _ _ E)) as P.
  injection H as <-. destruct (to_value q) as [f|e].
  - apply narrow32_proper.
  - intros Z. apply P. now injection Z as ->.
Qed.
Lemma GetBoolValue_proper X h v r : value_GetBoolValue X h v = Ok r -> proper r.
Proof.
  unfold value_GetBoolValue. intros H.
  destruct (rd_val h v) as [i| | |]; cbn [rbind] in H; try discriminate.
  destruct (iface_IsNil X i); [injection H as <-; discriminate|].
  destruct (deref h i) as [[s|]| | |]; cbn [rbind] in H; try discriminate; injection H as <-; [|discriminate].
  destruct s as [t|b|k z|[|] f]; try discriminate. destruct (bool_of_text t); discriminate.
Qed.
Lemma GetBool_proper X h v r : value_GetBool_content X h v = Ok r -> proper r.
Proof.
  unfold value_GetBool_content. intros H.
  destruct (value_GetBool X v h) as [[q h']| | |] eqn:E; cbn [rbind] in H; try discriminate.
  destruct q as [[p|]|e].
  - destruct (rd_ptr h' p) as [[]| | |]; cbn [rbind] in H; try discriminate. injection H as <-. discriminate.
  - injection H as <-. discriminate.
  - injection H as <-. unfold value_GetBool in E.
    destruct (rd_val h v) as [i| | |]; cbn [rbind] in E; try discriminate.
    destruct (iface_IsNil X i); [discriminate|]. intros Z. injection Z as ->.
    destruct i as [|[]|[] p| | | | | | | | |[?|]|[?|]| |[?|]| | |[?|]|[?|]|? [?|]]; try discriminate E.
    + cbn [deref rbind] in E. destruct (bool_of_text s); discriminate E.
    + destruct (deref h (IPtr TyStr p)) as [[[]|]| | |]; cbn [rbind] in E; try discriminate E.
      destruct (bool_of_text s); discriminate E.
Qed.
Lemma GetString_err X h v e h' : value_GetString X v h = Ok (GErr e, h') -> e <> [].
Proof.
  unfold value_GetString. intros E.
  destruct (rd_val h v) as [i| | |]; cbn [rbind] in E; try discriminate.
  destruct (iface_IsNil X i); [discriminate|].
  destruct i as [|[]|[] p| | | | | | | | |[?|]|[?|]| |[?|]| | |[?|]|[?|]|? [?|]]; try discriminate E.
Qed.
Lemma GetString_proper X h v r : value_GetString_content X h v = Ok r -> proper r.
Proof.
  unfold value_GetString_content. intros H.
  destruct (value_GetString X v h) as [[q h']| | |] eqn:E; cbn [rbind] in H; try discriminate.
  destruct q as [[p|]|e].
  - destruct (rd_ptr h' p) as [[]| | |]; cbn [rbind] in H; try discriminate. injection H as <-. discriminate.
  - injection H as <-. discriminate.
  - injection H as <-. intros Z. injection Z as ->. now apply GetString_err in E.
Qed.
Lemma GetStringValue_proper X h v r : value_GetStringValue X h v = Ok r -> proper r.
Proof.
  unfold value_GetStringValue. intros H.
  destruct (value_GetString X v h) as [[q h']| | |] eqn:E; cbn [rbind] in H; try discriminate.
  destruct q as [[p|]|e].
  - destruct (rd_ptr h' p) as [[]| | |]; cbn [rbind] in H; try discriminate. injection H as <-. discriminate.
  - injection H as <-. discriminate.
  - injection H as <-. intros Z. injection Z as ->. now apply GetString_err in E.
Qed.
