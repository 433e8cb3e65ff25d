(** * A test does not depend on what the library did before *)
From Coq Require Import Ascii String List NArith ZArith Bool Lia.
From Verif Require Import GoStr StrLemmas GoNum GoFloat Heap Common ValueModel ArrayModel MapModel JsonModel ParserModel
  GetterModel NamedModel PtrModel PtrListModel TimeModel SpecDict DictLemmas SpecWorld Inv World SpecAlike ClientModel
  AlikeFacts AlikeRead AlikeWrite ExampleAlike TestKit.
Import ListNotations.

Definition tval_rel (p : links) (v w : tval) : Prop :=
  match v, w with VObj m, VObj n => In (m, n) p | VObj _, _ | _, VObj _ => False | _, _ => v = w end.
Definition tres_rel (p : links) (v w : tres) : Prop := tval_rel p (fst v) (fst w) /\ snd v = snd w.
(** Two heaps and an object in each, equal for whoever reads them. *)
Definition twins (p : links) (h h' : heap) (m n : loc) : Prop := hrel p h h' /\ In (m, n) p.

Lemma flat {A} p (f : A -> tval) x y : x = y -> (forall a, match f a with VObj _ => False | _ => True end) ->
  qrel (tres_rel p) (rmap (to_t f) x) (rmap (to_t f) y).
Proof.
  intros -> F. destruct y as [[a|e]| | |]; cbn; auto.
  - split; cbn; auto. specialize (F a). destruct (f a); cbn; auto; tauto.
  - split; cbn; auto.
Qed.

Section Same.
  Context (p : links) (h h' : heap) (H : hrel p h h').
  Let X := std_ext.
  Let NA := std_prints_no_address.

  Lemma collect_ptr_same {A} (get get' : loc -> res (gres (option A))) l l' :
    Forall2 (same_handle p) l l' -> (forall v w, In (v, w) p -> qrel eq (get v) (get' w)) ->
    collect_ptr get l = collect_ptr get' l'.
  Proof.
    intros R G. induction R as [|[v|] [w|] l l' Ro Rl IH]; cbn in *; auto; try tauto.
    - now rewrite (qrel_eq_inv _ _ (G _ _ Ro)), IH.
    - now rewrite IH.
  Qed.
  Lemma arr_collect_ptr_same {A} (get get' : loc -> res (gres (option A))) a b :
    In (a, b) p -> (forall v w, In (v, w) p -> qrel eq (get v) (get' w)) ->
    qrel eq (arr_collect_ptr get h a) (arr_collect_ptr get' h' b).
  Proof.
    intros L G. unfold arr_collect_ptr. eapply qrel_bind; [apply (rd_arr_rel p h h' H); eauto|]. intros l l' R.
    rewrite (collect_ptr_same _ _ _ _ R G). apply qrel_eq.
  Qed.
  Context (m n : loc) (L : In (m, n) p) (k : str).
  Ltac one := apply flat; [apply qrel_eq_inv | intros [?|]; exact Logic.I].
  Lemma GetInt_rel i : qrel (tres_rel p) (GetInt i h m k) (GetInt i h' n k).
  Proof.
    unfold GetInt. one. destruct i; try exact Logic.I; eapply map_via_eq; eauto; intros;
      eapply value_GetIntKind_rel; eauto.
  Qed.
  Lemma GetFloat32_rel : qrel (tres_rel p) (GetFloat32 h m k) (GetFloat32 h' n k).
  Proof. unfold GetFloat32. one. eapply map_via_eq; eauto; intros. eapply value_GetFloat32_rel; eauto. Qed.
  Lemma GetFloat64_rel : qrel (tres_rel p) (GetFloat64 h m k) (GetFloat64 h' n k).
  Proof. unfold GetFloat64. one. eapply map_via_eq; eauto; intros. eapply value_GetFloat64_rel; eauto. Qed.
  Lemma GetString_rel : qrel (tres_rel p) (GetString h m k) (GetString h' n k).
  Proof. unfold GetString. one. eapply map_via_eq; eauto; intros. eapply value_GetString_content_rel; eauto. Qed.
  Lemma GetBool_rel : qrel (tres_rel p) (GetBool h m k) (GetBool h' n k).
  Proof. unfold GetBool. one. eapply map_via_eq; eauto; intros. eapply value_GetBool_content_rel; eauto. Qed.
  Lemma GetMap_rel : qrel (tres_rel p) (GetMap h m k) (GetMap h' n k).
  Proof.
    unfold GetMap, rmap. eapply qrel_bind; [eapply map_GetMap_rel; eauto|].
    intros [[a|]|e] [[b|]|e']; cbn; intros K; subst; split; cbn; auto; try tauto; discriminate.
  Qed.
  Ltac many := apply flat; [eapply array_of_same; eauto; intros | intros [?|]; exact Logic.I].
  Lemma GetArrayOfInt_rel i : qrel (tres_rel p) (GetArrayOfInt i h m k) (GetArrayOfInt i h' n k).
  Proof.
    unfold GetArrayOfInt. many. destruct i; try exact Logic.I; apply arr_collect_ptr_same; auto; intros;
      eapply value_GetIntKind_rel; eauto.
  Qed.
  Lemma GetArrayOfFloat32_rel : qrel (tres_rel p) (GetArrayOfFloat32 h m k) (GetArrayOfFloat32 h' n k).
  Proof. unfold GetArrayOfFloat32. many. apply arr_collect_ptr_same; auto; intros. eapply value_GetFloat32_rel; eauto. Qed.
  Lemma GetArrayOfFloat64_rel : qrel (tres_rel p) (GetArrayOfFloat64 h m k) (GetArrayOfFloat64 h' n k).
  Proof. unfold GetArrayOfFloat64. many. apply arr_collect_ptr_same; auto; intros. eapply value_GetFloat64_rel; eauto. Qed.
  Lemma GetArrayOfString_rel : qrel (tres_rel p) (GetArrayOfString h m k) (GetArrayOfString h' n k).
  Proof. unfold GetArrayOfString. many. apply arr_collect_ptr_same; auto; intros. eapply value_GetString_content_rel; eauto. Qed.
  Lemma GetArrayOfBool_rel : qrel (tres_rel p) (GetArrayOfBool h m k) (GetArrayOfBool h' n k).
  Proof. unfold GetArrayOfBool. many. apply arr_collect_ptr_same; auto; intros. eapply value_GetBool_content_rel; eauto. Qed.
  Lemma GetArrayOfFloat32Value_rel : qrel (tres_rel p) (GetArrayOfFloat32Value h m k) (GetArrayOfFloat32Value h' n k).
  Proof.
    unfold GetArrayOfFloat32Value. apply flat; [eapply array_of_value_same; eauto; intros | intros; exact Logic.I].
    eapply arr_collect_val_rel; eauto; intros. eapply value_GetFloat32Value_rel; eauto.
  Qed.
  Lemma GetArrayOfFloat64Value_rel : qrel (tres_rel p) (GetArrayOfFloat64Value h m k) (GetArrayOfFloat64Value h' n k).
  Proof.
    unfold GetArrayOfFloat64Value. apply flat; [eapply array_of_value_same; eauto; intros | intros; exact Logic.I].
    eapply arr_collect_val_rel; eauto; intros. eapply value_GetFloat64Value_rel; eauto.
  Qed.
  Lemma GetArrayOfBoolValue_rel : qrel (tres_rel p) (GetArrayOfBoolValue h m k) (GetArrayOfBoolValue h' n k).
  Proof.
    unfold GetArrayOfBoolValue. many. eapply arr_collect_val_rel; eauto; intros. eapply value_GetBoolValue_rel; eauto.
  Qed.
  Lemma HasKey_rel : HasKey h m k = HasKey h' n k.
  Proof. unfold HasKey. now rewrite (qrel_eq_inv _ _ (map_HasKey_rel p h h' H m n k L)). Qed.
  Lemma Is_rel f : Is f h m k = Is f h' n k.
  Proof.
    unfold Is. f_equal. apply qrel_eq_inv. eapply map_via_eq; eauto; intros. eapply value_is_rel; eauto.
  Qed.
  Lemma TypeIs_rel t : TypeIs h m k t = TypeIs h' n k t.
  Proof.
    unfold TypeIs. f_equal. f_equal. apply qrel_eq_inv. eapply map_via_eq; eauto; intros.
    eapply value_GetType_rel; eauto.
  Qed.
  Lemma KeyCount_rel c : KeyCount h m c = KeyCount h' n c.
  Proof. unfold KeyCount. now rewrite (qrel_eq_inv _ _ (map_GetKeys_rel p h h' H m n L)). Qed.
End Same.

Lemma KeyCountOf_rel p h h' v w c : hrel p h h' -> tval_rel p v w -> KeyCountOf h v c = KeyCountOf h' w c.
Proof. intros H R. destruct v, w; cbn in *; try tauto; try congruence. eapply KeyCount_rel; eauto. Qed.
Lemma on_rel p v w k k' : tval_rel p v w -> (forall m n, In (m, n) p -> k m = k' n) -> on v k = on w k'.
Proof. intros R K. destruct v, w; cbn in *; try tauto; try congruence; auto. Qed.
Lemma call_rel p x y k k' : qrel (tres_rel p) x y -> (forall v w e, tval_rel p v w -> k v e = k' w e) -> call x k = call y k'.
Proof.
  intros Q K. destruct x as [[v e]| | |], y as [[w e']| | |]; cbn in *; try tauto.
  destruct Q as [R E]; cbn in *; subst; auto.
Qed.
Lemma is_nil_rel p v w : tval_rel p v w -> is_nil v = is_nil w.
Proof. intros R. destruct v, w; cbn in *; try tauto; try congruence; auto; now injection R as ->. Qed.
Lemma val_is_rel p v w c : tval_rel p v w -> val_is v c = val_is w c.
Proof. intros R. destruct v, w; cbn in *; try tauto; try congruence; auto; now injection R as ->. Qed.
Lemma len_is_rel p v w c : tval_rel p v w -> len_is v c = len_is w c.
Proof. intros R. destruct v, w; cbn in *; try tauto; try congruence; auto; now injection R as ->. Qed.
Lemma elem_is_rel p v w i c : tval_rel p v w -> elem_is v i c = elem_is w i c.
Proof. intros R. destruct v, w; cbn in *; try tauto; try congruence; auto; now injection R as ->. Qed.
Lemma elem_nil_rel p v w i : tval_rel p v w -> elem_nil v i = elem_nil w i.
Proof. intros R. destruct v, w; cbn in *; try tauto; try congruence; auto; now injection R as ->. Qed.

Lemma no_links h h' : hrel [] h h'.
Proof. split; [intros ? ? ? ? []|intros ? ? []]. Qed.
Lemma with_parse_rel h0 h1 s k k' :
  (forall p h h' v w e, hrel p h h' -> tval_rel p v w -> k h v e = k' h' w e) -> with_parse h0 s k = with_parse h1 s k'.
Proof.
  intros K. unfold with_parse. pose proof (Parse_rel std_ext [] s [] h0 h1 (incl_refl _) (no_links _ _)) as Q.
  destruct (Parse std_ext s h0) as [[r h]| | |], (Parse std_ext s h1) as [[r' h']| | |]; cbn in Q; try tauto.
  destruct Q as (q & G & R). pose proof (gr_rel _ _ _ _ _ _ G) as Hq.
  destruct r as [[m|]|e], r' as [[n|]|e']; cbn in R; try tauto; subst; cbn; eapply K; eauto; cbn; auto.
Qed.
Lemma ParseJSONSuccessfully_rel h0 h1 s k k' :
  (forall p h h' m n, hrel p h h' -> In (m, n) p -> k h m = k' h' n) ->
  ParseJSONSuccessfully h0 s k = ParseJSONSuccessfully h1 s k'.
Proof.
  intros K. unfold ParseJSONSuccessfully. pose proof (Parse_rel std_ext [] s [] h0 h1 (incl_refl _) (no_links _ _)) as Q.
  destruct (Parse std_ext s h0) as [[r h]| | |], (Parse std_ext s h1) as [[r' h']| | |]; cbn in Q; try tauto.
  destruct Q as (q & G & R). pose proof (gr_rel _ _ _ _ _ _ G) as Hq.
  destruct r as [[m|]|e], r' as [[n|]|e']; cbn in R; try tauto; subst; auto.
  rewrite (qrel_eq_inv _ _ (map_ToJSONString_rel _ std_prints_no_address _ _ _ Hq 100 _ _ (Some []) R)).
  destruct (map_ToJSONString 100 std_ext h' n (Some [])) as [[? [|]]| | |]; auto. eapply K; eauto.
Qed.
Lemma andb_rel a b c d : a = c -> b = d -> andb a b = andb c d.
Proof. now intros -> ->. Qed.
Lemma negb_rel a b : a = b -> negb a = negb b.
Proof. now intros ->. Qed.
Lemma if_rel (a b c d e f : bool) : a = d -> b = e -> c = f -> (if a then b else c) = (if d then e else f).
Proof. now intros -> -> ->. Qed.

Ltac same_getter :=
  lazymatch goal with
  | |- qrel _ (GetInt _ _ _ _) _ => eapply GetInt_rel; eassumption
  | |- qrel _ (GetFloat32 _ _ _) _ => eapply GetFloat32_rel; eassumption
  | |- qrel _ (GetFloat64 _ _ _) _ => eapply GetFloat64_rel; eassumption
  | |- qrel _ (GetString _ _ _) _ => eapply GetString_rel; eassumption
  | |- qrel _ (GetBool _ _ _) _ => eapply GetBool_rel; eassumption
  | |- qrel _ (GetMap _ _ _) _ => eapply GetMap_rel; eassumption
  | |- qrel _ (GetArrayOfInt _ _ _ _) _ => eapply GetArrayOfInt_rel; eassumption
  | |- qrel _ (GetArrayOfFloat32 _ _ _) _ => eapply GetArrayOfFloat32_rel; eassumption
  | |- qrel _ (GetArrayOfFloat64 _ _ _) _ => eapply GetArrayOfFloat64_rel; eassumption
  | |- qrel _ (GetArrayOfString _ _ _) _ => eapply GetArrayOfString_rel; eassumption
  | |- qrel _ (GetArrayOfBool _ _ _) _ => eapply GetArrayOfBool_rel; eassumption
  | |- qrel _ (GetArrayOfFloat32Value _ _ _) _ => eapply GetArrayOfFloat32Value_rel; eassumption
  | |- qrel _ (GetArrayOfFloat64Value _ _ _) _ => eapply GetArrayOfFloat64Value_rel; eassumption
  | |- qrel _ (GetArrayOfBoolValue _ _ _) _ => eapply GetArrayOfBoolValue_rel; eassumption
  end.
Ltac same_test :=
  lazymatch goal with
  | |- ParseJSONSuccessfully _ _ _ = _ => apply ParseJSONSuccessfully_rel; intros; same_test
  | |- with_parse _ _ _ = _ => apply with_parse_rel; intros; same_test
  | |- call _ _ = _ => eapply call_rel; [same_getter | intros; same_test]
  | |- on _ _ = _ => eapply on_rel; [eassumption | intros; same_test]
  | |- andb _ _ = _ => apply andb_rel; same_test
  | |- negb _ = _ => apply negb_rel; same_test
  | |- (if _ then _ else _) = _ => apply if_rel; same_test
  | |- HasKey _ _ _ = _ => eapply HasKey_rel; eassumption
  | |- Is _ _ _ _ = _ => eapply Is_rel; eassumption
  | |- TypeIs _ _ _ _ = _ => eapply TypeIs_rel; eassumption
  | |- KeyCount _ _ _ = _ => eapply KeyCount_rel; eassumption
  | |- KeyCountOf _ _ _ = _ => eapply KeyCountOf_rel; eassumption
  | |- is_nil _ = _ => eapply is_nil_rel; eassumption
  | |- val_is _ _ = _ => eapply val_is_rel; eassumption
  | |- len_is _ _ = _ => eapply len_is_rel; eassumption
  | |- elem_is _ _ _ = _ => eapply elem_is_rel; eassumption
  | |- elem_nil _ _ = _ => eapply elem_nil_rel; eassumption
  | |- ?x = ?x => reflexivity
  end.
(** The test gives what it gives in the empty heap, where it is computed. *)
Ltac passes t :=
  transitivity (t []); [cbv beta delta [t]; same_test | vm_compute; reflexivity].
