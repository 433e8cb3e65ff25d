(** * Two heaps with the same content give the same texts of errors *)
From Coq Require Import Ascii String List NArith ZArith Bool Lia.
From Verif Require Import GoStr GoNum GoFloat Heap Common ValueModel ArrayModel MapModel JsonModel ParserModel GetterModel NamedModel
  RunesModel TimeModel SpecDict SpecWorld Inv World Reach SpecAlike MessageModel SaysModel ToldModel ClientModel TextModel AlikeFacts AlikeRead AlikeWrite AlikeTop.
Import ListNotations.

Section Says.
  Context (Q : str -> str) (X : ext) (NA : prints_no_address X).
  Context (p : links) (h h' : heap) (H : hrel p h h').
  Let rv := rd_val_rel p h h' H.
  Let ra := rd_arr_rel p h h' H.
  Let rm := rd_map_rel p h h' H.
  Let dr := deref_rel p h h' H.

  Ltac val := eapply qrel_bind; [apply rv; eassumption|];
    let i := fresh "i" in let j := fresh "j" in let R := fresh "R" in intros i j R;
    try rewrite (held_isnil _ _ _ X R); try rewrite (held_gtype _ _ _ X R);
    try match goal with |- context [iface_IsNil X j] => destruct (iface_IsNil X j) eqn:? end; [exact (eq_refl _)|].
  Ltac der R := eapply qrel_bind; [apply dr; exact R|]; let s := fresh in let s' := fresh in intros s s' ->; apply qrel_eq.

  Lemma conv_text_rel i j : same_held p i j -> conv_text X i = conv_text X j.
  Proof. intros R. unfold conv_text. now rewrite (held_gtype _ _ _ X R). Qed.

  Lemma int64_says_rel v w : In (v, w) p -> qrel eq (int64_says Q X h v) (int64_says Q X h' w).
  Proof.
    intros K. unfold int64_says. val. pose proof (held_gtype _ _ _ X R) as Gt. pose proof R as R0.
    assert (Y : forall a b, In (a, b) p -> qrel eq
       (r <-r conv_string X h (IVal a) ;; match r with GErr _ => tv <-r rd_val h a ;; Ok [conv_text X tv]
          | GVal t => Ok (match parse_int 64 t with Some _ => [] | None => [lit "error: Map.GetInt64: cannot convert json.Value to int64 " ++ int_error Q t] end) end)
       (r <-r conv_string X h' (IVal b) ;; match r with GErr _ => tv <-r rd_val h' b ;; Ok [conv_text X tv]
          | GVal t => Ok (match parse_int 64 t with Some _ => [] | None => [lit "error: Map.GetInt64: cannot convert json.Value to int64 " ++ int_error Q t] end) end)).
    { intros a b Kab. eapply qrel_bind; [apply (conv_string_rel X NA p h h' H); apply sh_val; exact Kab|].
      intros r r' ->. destruct r'; [apply qrel_eq|]. eapply qrel_bind; [apply rv; exact Kab|].
      intros x y Rx. cbn [qrel]. now rewrite (conv_text_rel _ _ Rx). }
    destruct R as [i N|t a b Kp|a b Kp|a b Kp|a b Kp|a b Kp|a b Kp|a b Kp]; try (apply Y; assumption).
    - destruct i as [| | | | | | | |[?|]| | | | | | | | | | |]; try discriminate N; rewrite ?Gt; der R0.
    - rewrite ?Gt. der R0.
    - der R0.
    - der R0.
    - der R0.
    - der R0.
  Qed.
  Lemma uint64_says_rel v w : In (v, w) p -> qrel eq (uint64_says X h v) (uint64_says X h' w).
  Proof. intros K. unfold uint64_says. val. der R. Qed.
  Lemma signed_says_rel lo hi t v w : In (v, w) p -> qrel eq (signed_says Q X h lo hi t v) (signed_says Q X h' lo hi t w).
  Proof.
    intros K. unfold signed_says. eapply qrel_bind; [apply (value_GetInt64_rel X NA p h h' H); exact K|]. intros r r' ->.
    eapply qrel_bind; [apply int64_says_rel; exact K|]. intros ms ms' ->. apply qrel_eq.
  Qed.
  Lemma unsigned_says_rel lo hi t v w : In (v, w) p -> qrel eq (unsigned_says X h lo hi t v) (unsigned_says X h' lo hi t w).
  Proof.
    intros K. unfold unsigned_says. eapply qrel_bind; [apply (value_GetUInt64_rel X p h h' H); exact K|]. intros r r' ->.
    eapply qrel_bind; [apply uint64_says_rel; exact K|]. intros ms ms' ->. apply qrel_eq.
  Qed.
  Lemma int_says_rel k v w : In (v, w) p -> qrel eq (int_says Q X h k v) (int_says Q X h' k w).
  Proof.
    intros K. unfold int_says, int32_says.
    destruct k; try (destruct (x_is64 X)); try exact Logic.I;
      try (apply int64_says_rel; exact K); try (apply uint64_says_rel; exact K); try (apply signed_says_rel; exact K); apply unsigned_says_rel; exact K.
  Qed.
  Lemma int_value_says_rel k v w : In (v, w) p -> qrel eq (int_value_says Q X h k v) (int_value_says Q X h' k w).
  Proof.
    intros K. unfold int_value_says. eapply qrel_bind; [apply (value_GetIntKind_rel X NA p h h' H); exact K|]. intros r r' ->.
    eapply qrel_bind; [apply int_says_rel; exact K|]. intros ms ms' ->. apply qrel_eq.
  Qed.
  Lemma float64_says_rel v w : In (v, w) p -> qrel eq (float64_says X h v) (float64_says X h' w).
  Proof. intros K. unfold float64_says. val. der R. Qed.
  Lemma float_with_rel {A} (f : gres (option flt) -> list str -> A) v w : In (v, w) p ->
    qrel eq (r <-r value_GetFloat64 X h v ;; ms <-r float64_says X h v ;; Ok (f r ms))
            (r <-r value_GetFloat64 X h' w ;; ms <-r float64_says X h' w ;; Ok (f r ms)).
  Proof.
    intros K. eapply qrel_bind; [apply (value_GetFloat64_rel X p h h' H); exact K|]. intros r r' ->.
    eapply qrel_bind; [apply float64_says_rel; exact K|]. intros ms ms' ->. apply qrel_eq.
  Qed.
  Lemma string_run v w : In (v, w) p -> qrel (fun s t => match fst s, fst t with
      | GVal None, GVal None => True | GVal (Some _), GVal (Some _) => True | GErr _, GErr _ => True | _, _ => False end)
    (value_GetString X v h) (value_GetString X w h').
  Proof.
    intros K. eapply qrel_imp; [|exact (value_GetString_rel X p v w K p h h' (incl_refl _) H)].
    intros [[[a|]|e] k] [[[b|]|e'] k'] (q & _ & R); cbn in *; auto; try tauto.
  Qed.
  Lemma string_says_rel v w : In (v, w) p -> qrel eq (string_says X h v) (string_says X h' w).
  Proof.
    intros K. unfold string_says. eapply qrel_bind; [apply string_run; exact K|]. intros s t _. exact (eq_refl _).
  Qed.
  Lemma string_value_says_rel v w : In (v, w) p -> qrel eq (string_value_says X h v) (string_value_says X h' w).
  Proof.
    intros K. unfold string_value_says. eapply qrel_bind; [apply string_run; exact K|]. intros s t R.
    eapply qrel_bind; [apply string_says_rel; exact K|]. intros ms ms' ->. unfold nil_says.
    cbn beta in R. destruct (fst s) as [[?|]|?], (fst t) as [[?|]|?]; try contradiction R; exact (eq_refl _).
  Qed.
  Lemma runes_says_rel v w : In (v, w) p -> qrel eq (runes_says X h v) (runes_says X h' w).
  Proof.
    intros K. unfold runes_says. val. pose proof (held_gtype _ _ _ X R) as Gt.
    destruct R as [i N|t a b Kp|a b Kp|a b Kp|a b Kp|a b Kp|a b Kp|a b Kp]; rewrite ?Gt; try apply qrel_eq.
  Qed.
  Lemma bool_says_rel v w : In (v, w) p -> qrel eq (bool_says X h v) (bool_says X h' w).
  Proof.
    intros K. unfold bool_says. val. pose proof (dr _ _ R) as Dr.
    assert (Gt : bool_type_text X i = bool_type_text X j) by (unfold bool_type_text; now rewrite (held_gtype _ _ _ X R)).
    destruct R as [i N|t a b Kp|a b Kp|a b Kp|a b Kp|a b Kp|a b Kp|a b Kp]; rewrite ?Gt; try apply qrel_eq.
    - destruct i as [|[| | |]|[| | |] [?|]| |[?|]| |[?|]| |[?|]| | | | | | | | | | |]; try discriminate N; try apply qrel_eq.
    - destruct t; rewrite ?Gt; try apply qrel_eq. eapply qrel_bind; [exact Dr|]. intros o o' ->. apply qrel_eq.
  Qed.
  Lemma bool_value_says_rel v w : In (v, w) p -> qrel eq (bool_value_says X h v) (bool_value_says X h' w).
  Proof.
    intros K. unfold bool_value_says. val.
    replace (bool_type_text X i) with (bool_type_text X j) by (unfold bool_type_text; now rewrite (held_gtype _ _ _ X R)).
    eapply qrel_bind; [exact (dr _ _ R)|]. intros o o' ->. apply qrel_eq.
  Qed.
  Lemma map_ptr_says_rel v w : In (v, w) p -> qrel eq (map_ptr_says X h v) (map_ptr_says X h' w).
  Proof.
    intros K. unfold map_ptr_says. val. assert (Gt : unbox_text X i = unbox_text X j) by (unfold unbox_text; now rewrite (held_gtype _ _ _ X R)).
    destruct R; rewrite ?Gt; apply qrel_eq.
  Qed.
  Lemma map_value_says_rel v w : In (v, w) p -> qrel eq (map_value_says X h v) (map_value_says X h' w).
  Proof.
    intros K. unfold map_value_says. val. assert (Gt : unbox_text X i = unbox_text X j) by (unfold unbox_text; now rewrite (held_gtype _ _ _ X R)).
    destruct R; rewrite ?Gt; apply qrel_eq.
  Qed.
  Lemma array_says_rel v w : In (v, w) p -> qrel eq (array_says X h v) (array_says X h' w).
  Proof. intros K. unfold array_says. val. destruct R; apply qrel_eq. Qed.
  Lemma array_value_says_rel v w : In (v, w) p -> qrel eq (array_value_says X h v) (array_value_says X h' w).
  Proof.
    intros K. unfold array_value_says. eapply qrel_bind; [apply (value_GetArrayValue_rel X p h h' H); exact K|]. intros _ _ _.
    eapply qrel_bind; [apply array_says_rel; exact K|]. intros ms ms' ->.
    eapply qrel_bind; [apply (value_IsNil_rel X p h h' H); exact K|]. intros b b' ->. apply qrel_eq.
  Qed.
  Lemma func_says_rel v w : In (v, w) p -> qrel eq (func_says X h v) (func_says X h' w).
  Proof.
    intros K. unfold func_says. val. pose proof (held_gtype _ _ _ X R) as Gt.
    destruct R; try apply qrel_eq; rewrite ?Gt; unfold common_GetType; cbn; apply qrel_eq.
  Qed.
  Lemma pval o o' : same_handle p o o' -> same_held p (IPVal o) (IPVal o').
  Proof. destruct o, o'; cbn; try tauto; constructor; auto. Qed.
  Lemma elems_say_rel l l' : Forall2 (same_handle p) l l' -> qrel eq (elems_say X h l) (elems_say X h' l').
  Proof.
    induction 1 as [|o o' l l' Ro _ IH]; cbn [elems_say]; [exact (eq_refl _)|].
    eapply qrel_bind; [apply (conv_string_rel X NA p h h' H); apply pval; exact Ro|]. intros r r' ->.
    eapply qrel_bind.
    - instantiate (1 := eq). destruct r'; [destruct o, o'; apply qrel_eq|].
      destruct o as [a|], o' as [b|]; cbn in Ro; try tauto; [|exact (eq_refl _)].
      eapply qrel_bind; [apply rv; exact Ro|]. intros x y Rx. cbn [qrel]. now rewrite (conv_text_rel _ _ Rx).
    - intros m m' ->. eapply qrel_bind; [exact IH|]. intros ms ms' ->. apply qrel_eq.
  Qed.
  Lemma errors_say_rel v w : In (v, w) p -> qrel eq (errors_say X h v) (errors_say X h' w).
  Proof.
    intros K. unfold errors_say. val. pose proof (held_gtype _ _ _ X R) as Gt.
    assert (Y : forall a b, In (a, b) p -> qrel eq (l <-r rd_arr h a ;; elems_say X h l) (l <-r rd_arr h' b ;; elems_say X h' l)).
    { intros a b Kab. eapply qrel_bind; [apply ra; exact Kab|]. apply elems_say_rel. }
    destruct R as [i N|t a b Kp|a b Kp|a b Kp|a b Kp|a b Kp|a b Kp|a b Kp]; rewrite ?Gt; try apply qrel_eq; try (apply Y; assumption).
    destruct i as [|[| | |]|[| | |] [?|]| |[?|]| |[?|]| |[?|]| | | | | | | | | | |]; try discriminate N; apply qrel_eq.
  Qed.
  Lemma value_says_rel g v w : In (v, w) p -> qrel eq (value_says Q X h g v) (value_says Q X h' g w).
  Proof.
    intros K. destruct g as [k|k|k|k| | | | | | | | | | |]; cbn [value_says].
    - now apply int_says_rel.
    - now apply int_value_says_rel.
    - destruct k; [now apply float_with_rel | now apply float64_says_rel].
    - destruct k; now apply float_with_rel.
    - now apply string_says_rel.
    - now apply string_value_says_rel.
    - now apply bool_says_rel.
    - now apply bool_value_says_rel.
    - now apply map_ptr_says_rel.
    - now apply map_value_says_rel.
    - now apply array_says_rel.
    - now apply array_value_says_rel.
    - now apply errors_say_rel.
    - now apply func_says_rel.
    - now apply runes_says_rel.
  Qed.

  Lemma map_says_rel g m n k : In (m, n) p -> qrel eq (map_says Q X h g m k) (map_says Q X h' g n k).
  Proof.
    intros K.
    assert (V : forall z f, qrel eq (map_via z (value_says Q X h f) h m k) (map_via z (value_says Q X h' f) h' n k)).
    { intros z f. apply (map_via_eq p h h' H); auto. intros v w Kv. now apply value_says_rel. }
    assert (G : forall f z, qrel eq (o <-r map_GetValue h m k ;; match o with None => Ok z | Some v => value_says Q X h f v end)
                                     (o <-r map_GetValue h' n k ;; match o with None => Ok z | Some v => value_says Q X h' f v end)).
    { intros f z. eapply qrel_bind; [apply (map_GetValue_rel p h h' H); exact K|].
      intros [a|] [b|] Rab; cbn in Rab; try tauto; [now apply value_says_rel | apply qrel_eq]. }
    unfold map_says. destruct g as [kd|kd|?|?| | | | | | | | | | |]; try (destruct kd); try exact Logic.I; try (apply V); try apply G.
    eapply qrel_bind; [apply (map_GetArray_rel X p h h' H); exact K|]. intros r r' Rr.
    eapply qrel_bind; [apply V|]. intros ms ms' ->.
    destruct r as [[?|]|?], r' as [[?|]|?]; cbn in Rr; try tauto; apply qrel_eq.
  Qed.

  Lemma remove_key_says_rel m n k : In (m, n) p -> qrel eq (remove_key_says h m k) (remove_key_says h' n k).
  Proof.
    intros K. unfold remove_key_says. eapply qrel_bind; [apply rm; exact K|]. intros x y R.
    rewrite (has_key_rel p x y k R), (proj1 R). apply qrel_eq.
  Qed.
  Lemma at_index_says_rel a b n : In (a, b) p -> qrel eq (at_index_says h a n) (at_index_says h' b n).
  Proof.
    intros K. unfold at_index_says. eapply qrel_bind; [apply ra; exact K|]. intros l l' R.
    rewrite (F2_length _ _ _ R). apply qrel_eq.
  Qed.
  Lemma arr_elem_says_rel get get' a b n : In (a, b) p -> (forall v w, In (v, w) p -> qrel eq (get v) (get' w)) ->
    qrel eq (arr_elem_says h get a n) (arr_elem_says h' get' b n).
  Proof.
    intros K G. unfold arr_elem_says. eapply qrel_bind; [apply ra; exact K|]. intros l l' R.
    rewrite (F2_length _ _ _ R). destruct (n <? 0)%Z; [apply qrel_eq|]. destruct (_ <? n)%Z; [apply qrel_eq|].
    pose proof (F2_nth_error p l l' (Z.to_nat n) R) as N.
    destruct (nth_error l (Z.to_nat n)) as [[v|]|], (nth_error l' (Z.to_nat n)) as [[w|]|]; cbn in N; try tauto; try exact Logic.I.
    eapply qrel_bind; [apply G; exact N|]. intros ms ms' ->. apply qrel_eq.
  Qed.
  Lemma arr_map_says_rel a b n : In (a, b) p -> qrel eq (arr_map_says X h a n) (arr_map_says X h' b n).
  Proof.
    intros K. unfold arr_map_says.
    eapply qrel_bind; [apply (arr_elem_rel p h h' H (same_handle p)); [exact K|]; intros v w Kv; apply (value_GetMap_rel X p h h' H); exact Kv|].
    intros r r' Rr. eapply qrel_bind; [apply arr_elem_says_rel; [exact K|]; intros v w Kv; now apply map_ptr_says_rel|].
    intros ms ms' ->. destruct r as [[?|]|?], r' as [[?|]|?]; cbn in Rr; try tauto; apply qrel_eq.
  Qed.
  Lemma collect_says_rel null g l l' : Forall2 (same_handle p) l l' ->
    qrel eq (collect_says null (value_says Q X h g) l) (collect_says null (value_says Q X h' g) l').
  Proof.
    induction 1 as [|o o' l l' Ro _ IH]; cbn [collect_says]; [exact (eq_refl _)|].
    destruct o as [a|], o' as [b|]; cbn in Ro; try tauto.
    - eapply qrel_bind; [apply value_says_rel; exact Ro|]. intros m m' ->.
      eapply qrel_bind; [exact IH|]. intros ms ms' ->. apply qrel_eq.
    - eapply qrel_bind; [exact IH|]. intros ms ms' ->. apply qrel_eq.
  Qed.
  Lemma array_of_says_rel g a b : In (a, b) p -> qrel eq (array_of_says Q X h g a) (array_of_says Q X h' g b).
  Proof.
    intros K.
    assert (Y : forall null f, qrel eq (l <-r rd_arr h a ;; collect_says null (value_says Q X h f) l)
                                       (l <-r rd_arr h' b ;; collect_says null (value_says Q X h' f) l)).
    { intros null f. eapply qrel_bind; [apply ra; exact K|]. intros l l' R. now apply collect_says_rel. }
    unfold array_of_says. destruct g as [kd|kd|?|?| | | | | | | | | | |]; try (destruct kd); try exact Logic.I; apply Y.
  Qed.
  Lemma map_list_says_rel g m n k : In (m, n) p -> qrel eq (map_list_says Q X h g m k) (map_list_says Q X h' g n k).
  Proof.
    intros K.
    assert (Y : forall f, qrel eq
      (r <-r map_GetArray X h m k ;; match r with GErr _ => map_says Q X h QArr m k | GVal None => Ok [] | GVal (Some a) => array_of_says Q X h f a end)
      (r <-r map_GetArray X h' n k ;; match r with GErr _ => map_says Q X h' QArr n k | GVal None => Ok [] | GVal (Some a) => array_of_says Q X h' f a end)).
    { intros f. eapply qrel_bind; [apply (map_GetArray_rel X p h h' H); exact K|].
      intros [[a|]|?] [[b|]|?] Rr; cbn in Rr; try tauto; [now apply array_of_says_rel | apply qrel_eq | now apply map_says_rel]. }
    assert (Z : forall f, qrel eq
      (r <-r map_GetArrayValue X h m k ;; match r with GErr _ => map_says Q X h QArrV m k | GVal a => array_of_says Q X h f a end)
      (r <-r map_GetArrayValue X h' n k ;; match r with GErr _ => map_says Q X h' QArrV n k | GVal a => array_of_says Q X h' f a end)).
    { intros f. eapply qrel_bind; [apply (map_GetArrayValue_rel X p h h' H); exact K|].
      intros [a|?] [b|?] Rr; cbn in Rr; try tauto; [now apply array_of_says_rel | now apply map_says_rel]. }
    unfold map_list_says. destruct g as [kd|kd|?|?| | | | | | | | | | |]; try (destruct kd); try exact Logic.I; try apply Y; apply Z.
  Qed.
End Says.

Lemma items_say_rel {A B} (R : A -> B -> Prop) f g l l' :
  Forall2 R l l' -> (forall a b, R a b -> qrel eq (f a) (g b)) -> qrel eq (items_say f l) (items_say g l').
Proof.
  intros F G. induction F as [|a b l l' Ra _ IH]; cbn [items_say]; [exact (eq_refl _)|].
  eapply qrel_bind; [apply G; exact Ra|]. intros r r' ->. eapply qrel_bind; [exact IH|]. intros q q' ->. apply qrel_eq.
Qed.
Lemma F2_same {A} (l : list A) : Forall2 eq l l.
Proof. induction l; constructor; auto. Qed.

Section Told.
  Context (E : str -> str) (X : ext) (NA : prints_no_address X).
  Context (p : links) (h h' : heap) (H : hrel p h h').
  Let rv := rd_val_rel p h h' H.
  Let ra := rd_arr_rel p h h' H.
  Let rm := rd_map_rel p h h' H.
  Let dr := deref_rel p h h' H.

  Section Conv.
    Context (f g : iface -> res (list str)).
    Context (C : forall i j, same_held p i j -> qrel eq (f i) (g j)).
    Lemma arr_json_says_rel a b : In (a, b) p -> qrel eq (arr_json_says f h a) (arr_json_says g h' b).
    Proof.
      intros K. unfold arr_json_says. eapply qrel_bind; [apply ra; exact K|]. intros l l' R.
      eapply items_say_rel; [exact R|]. intros o o' Ro. apply C. now apply pval.
    Qed.
    Lemma members_say_rel t t' ks : (forall k, entry_rel p (tbl_get t k) (tbl_get t' k)) ->
      qrel eq (members_say E X f t ks) (members_say E X g t' ks).
    Proof.
      intros T. induction ks as [|k ks IH]; cbn [members_say]; [exact (eq_refl _)|]. destruct (x_escape X k); [|exact (eq_refl _)].
      eapply qrel_bind.
      - apply C. apply pval. specialize (T k). destruct (tbl_get t k), (tbl_get t' k); cbn in T; try tauto; exact Logic.I.
      - intros r r' ->. eapply qrel_bind; [exact IH|]. intros q q' ->. apply qrel_eq.
    Qed.
    Lemma map_json_says_rel m n : In (m, n) p -> qrel eq (map_json_says E X f h m) (map_json_says E X g h' n).
    Proof.
      intros K. unfold map_json_says. eapply qrel_bind; [apply rm; exact K|]. intros x y (Ek & _ & T). rewrite Ek. now apply members_say_rel.
    Qed.
    Lemma held_says_rel i j : same_held p i j -> qrel eq (held_says E X f h i) (held_says E X g h' j).
    Proof.
      intros R. pose proof (dr _ _ R) as D. unfold held_says.
      rewrite (held_gtype _ _ _ X R). pose proof (held_nil _ _ _ R) as Nl.
      destruct (common_GetType X j); try exact (eq_refl _);
        try (eapply qrel_bind; [exact D|]; intros s s' ->; apply qrel_eq);
        try (destruct R; try exact Logic.I; apply qrel_eq).
      - destruct R as [i N| | | | | | |]; try exact Logic.I; try (apply map_json_says_rel; assumption).
        destruct i as [| | | |[?|]| | | | | | | | | | | | | | |]; try exact Logic.I; discriminate.
      - destruct R as [i N| | | | | | |]; try exact Logic.I; try (apply map_json_says_rel; assumption).
        destruct i as [| | | |[?|]| | | | | | | | | | | | | | |]; try exact Logic.I; discriminate.
      - destruct R as [i N| | | | | | |]; try exact Logic.I; try (apply arr_json_says_rel; assumption).
        destruct i as [| | | | | |[?|]| | | | | | | | | | | | |]; try exact Logic.I; discriminate.
      - destruct R as [i N| | | | | | |]; try exact Logic.I; try (apply arr_json_says_rel; assumption).
        destruct i as [| | | | | |[?|]| | | | | | | | | | | | |]; try exact Logic.I; discriminate.
    Qed.
  End Conv.
  Lemma conv_says_rel n i j : same_held p i j -> qrel eq (conv_says E X n h i) (conv_says E X n h' j).
  Proof.
    revert i j. induction n as [|n IH]; intros i j R; cbn [conv_says]; [exact Logic.I|].
    rewrite (held_nil _ _ _ R). destruct (common_IsNil j); [exact (eq_refl _)|].
    eapply qrel_bind; [apply (unwrap_rel p h h' H); exact R|]. intros x y Rx. now apply held_says_rel.
  Qed.
  Lemma convert_string_says_rel i j : same_held p i j -> qrel eq (convert_string_says X h i) (convert_string_says X h' j).
  Proof.
    intros R. unfold convert_string_says. eapply qrel_bind; [apply (unwrap_rel p h h' H); exact R|]. intros x y Rx.
    eapply qrel_bind; [apply (conv_string_rel X NA p h h' H); exact R|]. intros r r' ->.
    rewrite (conv_text_rel X p _ _ Rx). apply qrel_eq.
  Qed.

  Section Clone.
    Context (f g : ckind -> loc -> res (list str)).
    Context (C : forall k a b, In (a, b) p -> qrel eq (f k a) (g k b)).
    Lemma clone_map_says_rel who v w : In (v, w) p -> qrel eq (clone_map_says X f h who v) (clone_map_says X g h' who w).
    Proof.
      intros K. unfold clone_map_says. eapply qrel_bind; [apply (value_GetMap_rel X p h h' H); exact K|].
      intros [[a|]|?] [[b|]|?] Rr; cbn in Rr; try tauto; [now apply C | apply qrel_eq | now apply (map_ptr_says_rel X p h h' H)].
    Qed.
    Lemma clone_arr_says_rel who v w : In (v, w) p -> qrel eq (clone_arr_says X f h who v) (clone_arr_says X g h' who w).
    Proof.
      intros K. unfold clone_arr_says. eapply qrel_bind; [apply (value_GetArray_rel X p h h' H); exact K|].
      intros [[a|]|?] [[b|]|?] Rr; cbn in Rr; try tauto; [now apply C | apply qrel_eq | now apply (array_says_rel X p h h' H)].
    Qed.
    Lemma clone_plain_says_rel i j : same_held p i j -> qrel eq (clone_plain_says X h i) (clone_plain_says X h' j).
    Proof.
      intros R. unfold clone_plain_says.
      eapply qrel_bind; [exact (clone_plain_rel X NA p i j R p h h' (incl_refl _) H)|].
      intros [[a|] k] [[b|] k'] (q & _ & Rq); cbn in Rq; try tauto; try exact (eq_refl _).
      cbn [fst]. rewrite (held_gtype _ _ _ X R). exact (eq_refl _).
    Qed.
    Lemma clone_value_says_rel v w : In (v, w) p -> qrel eq (clone_value_says X f h v) (clone_value_says X g h' w).
    Proof.
      intros K. unfold clone_value_says. eapply qrel_bind; [apply (value_GetType_rel X p h h' H); exact K|]. intros t t' ->.
      destruct (common_IsMap t'); [now apply clone_map_says_rel|]. destruct (common_IsArray X t'); [now apply clone_arr_says_rel|].
      eapply qrel_bind; [apply (value_GetObject_rel p h h' H); exact K|]. apply clone_plain_says_rel.
    Qed.
    Lemma clone_key_says_rel m n k : In (m, n) p -> qrel eq (clone_key_says X f h m k) (clone_key_says X g h' n k).
    Proof.
      intros K. unfold clone_key_says.
      assert (Y : forall t, qrel eq (map_is t X h m k) (map_is t X h' n k)).
      { intros t. apply (map_via_eq p h h' H); auto. intros v w Kv. now apply (value_is_rel X p h h' H). }
      eapply qrel_bind; [apply Y|]. intros b b' ->. eapply qrel_bind; [apply Y|]. intros c c' ->.
      eapply qrel_bind; [apply (map_GetValue_rel p h h' H); exact K|].
      intros [v|] [w|] Rv; cbn in Rv; try tauto; [|destruct b', c'; apply qrel_eq].
      destruct b'; [now apply clone_map_says_rel|]. destruct c'; [now apply clone_arr_says_rel|]. now apply C.
    Qed.
    Lemma clone_members_say_rel m n : In (m, n) p -> qrel eq (clone_members_say X f h m) (clone_members_say X g h' n).
    Proof.
      intros K. unfold clone_members_say. eapply qrel_bind; [apply (map_GetKeys_rel p h h' H); exact K|]. intros ks ks' ->.
      eapply items_say_rel; [apply F2_same|]. intros k k' ->. now apply clone_key_says_rel.
    Qed.
    Lemma clone_elems_say_rel a b : In (a, b) p -> qrel eq (clone_elems_say X f h a) (clone_elems_say X g h' b).
    Proof.
      intros K. unfold clone_elems_say. eapply qrel_bind; [apply ra; exact K|]. intros l l' R.
      eapply items_say_rel; [exact R|]. intros [v|] [w|] Rv; cbn in Rv; try contradiction Rv; [|exact Logic.I].
      unfold clone_elem_says. eapply qrel_bind; [apply (value_GetType_rel X p h h' H); exact Rv|]. intros t t' ->.
      destruct (common_IsMap t'); [now apply clone_map_says_rel|]. destruct (common_IsArray X t'); [now apply clone_arr_says_rel|]. now apply C.
    Qed.
  End Clone.
  Lemma clone_says_rel n k a b : In (a, b) p -> qrel eq (clone_says X n h k a) (clone_says X n h' k b).
  Proof.
    revert k a b. induction n as [|n IH]; intros k a b K; cbn [clone_says]; [exact Logic.I|].
    destruct k; [apply clone_value_says_rel | apply clone_members_say_rel | apply clone_elems_say_rel]; auto.
  Qed.
End Told.

(** ** Parse *)

Section Parse.
  Context (X : ext).
  Lemma parseJSONValue_says_rel p h h' k t l l' : hrel p h h' -> Forall2 (linked p) l l' ->
    qrel eq (parseJSONValue_says X k t l h) (parseJSONValue_says X k t l' h').
  Proof.
    intros H F. destruct F as [|v w l l' K F]; [exact (eq_refl _)|]. cbn [parseJSONValue_says].
    eapply qrel_bind; [apply (value_is_rel X p h h' H); exact K|]. intros b b' ->. apply qrel_eq.
  Qed.
  Lemma attach_says_rel p h h' k l l' : hrel p h h' -> Forall2 (linked p) l l' ->
    qrel eq (attach_says X l k h) (attach_says X l' k h').
  Proof.
    intros H F. destruct F as [|v w l l' K F]; [exact (eq_refl _)|]. cbn [attach_says].
    eapply qrel_bind; [apply (value_is_rel X p h h' H); exact K|]. intros b b' ->. apply qrel_eq.
  Qed.
  Lemma end_says_rel p h h' s t : hrel p h h' -> pst_rel p s t -> qrel eq (end_says X s h) (end_says X t h').
  Proof.
    intros H (_ & _ & A & B & F & _). unfold end_says. rewrite A, B. now apply (parseJSONValue_says_rel p).
  Qed.
  Lemma step_mode_says_rel p h h' b s t : hrel p h h' -> pst_rel p s t ->
    qrel eq (step_mode_says X b s h) (step_mode_says X b t h').
  Proof.
    intros H R. pose proof R as (A & B & C & _ & F & _). unfold step_mode_says. rewrite A, B, C.
    destruct (p_mode t); try exact (eq_refl _);
      repeat match goal with |- qrel _ (if ?x then _ else _) _ => destruct x end;
      try exact (eq_refl _); try (now apply (attach_says_rel p)); now apply (end_says_rel p).
  Qed.
  Lemma step_says_rel p h h' prev b s t : hrel p h h' -> pst_rel p s t ->
    qrel eq (step_says X prev b s h) (step_says X prev b t h').
  Proof.
    intros H R. pose proof R as (A & B & _ & _ & _ & _ & G & _). unfold step_says. rewrite A, B, G.
    repeat match goal with |- qrel _ (if ?x then _ else _) _ => destruct x end;
      try (apply (step_mode_says_rel p); [exact H | now apply set_ps_rel]); try (now apply (step_mode_says_rel p)).
    destruct (p_mode t); try exact (eq_refl _); apply (end_says_rel p); auto; now apply add_val_rel.
  Qed.
  Definition heard_rel (q : links) (s t : pst * list str) : Prop := pst_rel q (fst s) (fst t) /\ snd s = snd t.
  Lemma loop_says_rel p prev u s t ms : pst_rel p s t -> mrel p heard_rel (loop_says X prev u s ms) (loop_says X prev u t ms).
  Proof.
    revert p prev s t ms. induction u as [|b u IH]; intros p prev s t ms R; cbn [loop_says].
    - apply mrel_ret. intros q I. split; [eapply pst_rel_incl; eauto | reflexivity].
    - eapply mrel_bind.
      + apply (mrel_lift p req). intros q h h' I H. apply (step_says_rel q); [exact H | eapply pst_rel_incl; eauto].
      + intros q m m' I EQ. cbv beta delta [req] in EQ. subst m'.
        eapply mrel_bind; [apply step_rel; eapply pst_rel_incl; eauto|]. intros q2 s' t' I2 R'. now apply IH.
  Qed.
  Lemma Parse_says_rel p u : mrel p (fun _ x y => snd x = snd y) (Parse_says X u) (Parse_says X u).
  Proof.
    unfold Parse_says.
    match goal with |- context [match ?x with [] => _ | _ :: _ => _ end] => destruct x end; [|apply mrel_ret; reflexivity].
    destruct (str_eqb u (lit "{}")).
    - eapply mrel_bind; [apply new_map_rel|]. intros. apply mrel_ret. reflexivity.
    - eapply mrel_bind; [apply (loop_says_rel p None u pst0 pst0 []); repeat split; cbn; auto|].
      intros q s t I (R & Es). rewrite Es. destruct (snd t); [|apply mrel_ret; reflexivity].
      destruct R as (_ & _ & _ & _ & _ & _ & G & _). rewrite G. cbn zeta.
      match goal with |- mrel _ _ (match ?x with [] => _ | _ :: _ => _ end) _ => destruct x end; apply mrel_ret; reflexivity.
  Qed.
End Parse.

(** ** Programs *)

Section Listen.
  Context (Q E : str -> str) (T : option Z -> time_arg -> list str) (X : ext) (L : timelib) (NA : prints_no_address X).

  Lemma time_says_rel p0 p h h' i j : hrel p h h' -> same_held p i j -> qrel eq (time_says T L p0 h i) (time_says T L p0 h' j).
  Proof.
    intros H R. unfold time_says. eapply qrel_bind.
    - instantiate (1 := eq). unfold time_arg_of.
      replace (static_type i) with (static_type j) by (symmetry; now apply (held_type p)).
      replace (time_of i) with (time_of j) by (destruct R; reflexivity).
      eapply qrel_bind; [|intros s s' ->; apply qrel_eq].
      pose proof (deref_rel p h h' H _ _ R) as D.
      destruct R as [i N|t a b Kp|a b Kp|a b Kp|a b Kp|a b Kp|a b Kp|a b Kp]; try exact D.
      destruct i as [| |? [?|]| | | | | | | | | | | | | | | | |]; try exact D; try discriminate N; exact (eq_refl _).
    - intros a a' ->. apply qrel_eq.
  Qed.
  Lemma value_time_says_rel p0 p h h' v w : hrel p h h' -> In (v, w) p ->
    qrel eq (value_time_says T X L p0 h v) (value_time_says T X L p0 h' w).
  Proof.
    intros H K. unfold value_time_says. eapply qrel_bind; [apply (rd_val_rel p h h' H); exact K|]. intros i j R.
    rewrite (held_isnil _ _ _ X R). destruct (iface_IsNil X j); [exact (eq_refl _)|]. now apply (time_says_rel p0 p).
  Qed.

  Lemma texts_of_rel p f g q : (forall i, In i (request_handles q) -> In (f i, g i) p) ->
    forall h h', hrel p h h' -> qrel eq (texts_of Q E T X L (rename f q) h) (texts_of Q E T X L (rename g q) h').
  Proof.
    intros I h h' H. destruct q; cbn [rename texts_of request_handles] in *; try exact (eq_refl _).
    - destruct c; cbn [rename_api api_handles] in *; try exact (eq_refl _).
      + apply (remove_key_says_rel p); auto; apply I; cbn; auto.
      + apply (at_index_says_rel p); auto; apply I; cbn; auto.
      + apply (at_index_says_rel p); auto; apply I; cbn; auto.
    - destruct (asked_of_getter g0); [|exact (eq_refl _)]. apply (map_says_rel Q X NA p); auto; apply I; cbn; auto.
    - destruct (asked_of_vgetter g0); [|exact (eq_refl _)]. apply (value_says_rel Q X NA p); auto; apply I; cbn; auto.
    - apply (map_says_rel Q X NA p); auto; apply I; cbn; auto.
    - apply (value_says_rel Q X NA p); auto; apply I; cbn; auto.
    - apply (array_of_says_rel Q X NA p); auto; apply I; cbn; auto.
    - apply (map_list_says_rel Q X NA p); auto; apply I; cbn; auto.
    - apply (array_of_says_rel Q X NA p); auto; apply I; cbn; auto.
    - apply (map_list_says_rel Q X NA p); auto; apply I; cbn; auto.
    - apply (value_says_rel Q X NA p); auto; apply I; cbn; auto.
    - apply (map_says_rel Q X NA p); auto; apply I; cbn; auto.
    - apply (arr_elem_says_rel p); auto; [apply I; cbn; auto|]. intros v w Kv. now apply (string_value_says_rel X p).
    - apply (arr_map_says_rel X p); auto; apply I; cbn; auto.
    - apply (convert_string_says_rel X NA p); auto. now apply rename_held.
    - destruct b; [|exact (eq_refl _)]. apply (map_json_says_rel E X p h h' H); [|apply I; cbn; auto].
      intros i j R. now apply (conv_says_rel E X p).
    - destruct b; [|exact (eq_refl _)]. apply (arr_json_says_rel p h h' H); [|apply I; cbn; auto].
      intros i j R. now apply (conv_says_rel E X p).
    - apply (conv_says_rel E X p); auto. now apply rename_held.
    - apply (clone_says_rel E X NA p); auto; apply I; cbn; auto.
    - eapply qrel_bind; [exact (Parse_says_rel X p s p h h' (incl_refl _) H)|]. intros x y (r & _ & R). exact R.
    - apply (value_time_says_rel _ p); auto; apply I; cbn; auto.
    - unfold value_timev_says. eapply qrel_bind; [apply (rd_val_rel p h h' H); apply I; cbn; auto|]. intros i j R. now apply (time_says_rel None p).
    - apply (map_via_eq p h h' H); [apply I; cbn; auto|]. intros v w Kv. now apply (value_time_says_rel _ p).
  Qed.

  Lemma listen_rel n c : forall s p t t' h h', hrel p h h' -> Forall2 (linked p) t t' ->
    fst (listen Q E T X L n c s t h) = fst (listen Q E T X L n c s t' h')
    /\ exists q, grows p h h' q (snd (listen Q E T X L n c s t h)) (snd (listen Q E T X L n c s t' h')).
  Proof.
    induction n as [|n IH]; intros s p t t' h h' H F; cbn [listen].
    - split; auto. exists p. now apply grows_refl.
    - destruct (c s) as [q|]; [|split; auto; exists p; now apply grows_refl].
      rewrite (F2_length _ _ _ F).
      destruct (forallb (fun i => Nat.ltb i (length t')) (request_handles q)) eqn:Eb;
        [|split; auto; exists p; now apply grows_refl].
      assert (A : forall i, In i (request_handles q) -> In (nth i t 0, nth i t' 0) p).
      { intros i Hi. rewrite forallb_forall in Eb. apply Eb in Hi. apply Nat.ltb_lt in Hi.
        apply table_rel; auto. now rewrite (F2_length _ _ _ F). }
      pose proof (ask_rel X L NA p _ _ q A p h h' (incl_refl _) H) as R.
      pose proof (texts_of_rel p _ _ q A h h' H) as R2. unfold ask_texts.
      destruct (ask X L (rename (fun i => nth i t 0) q) h) as [[r k]| | |],
               (ask X L (rename (fun i => nth i t' 0) q) h') as [[r' k']| | |]; cbn in R; try tauto;
        try (split; auto; exists p; now apply grows_refl).
      cbn [rbind]. apply qrel_eq_inv in R2. rewrite R2.
      destruct (texts_of Q E T X L (rename (fun i => nth i t' 0) q) h') as [ms| | |]; cbn [rbind];
        try (split; auto; exists p; now apply grows_refl).
      cbn [fst snd]. destruct R as (p' & G & Ef & Eh).
      assert (F' : Forall2 (linked p') (t ++ snd r) (t' ++ snd r')).
      { apply Forall2_app; auto. eapply F2_linked_incl; [apply (gr_incl _ _ _ _ _ _ G) | exact F]. }
      rewrite Ef, (places_rel p' _ _ _ _ (proj1 (gr_rel _ _ _ _ _ _ G)) F' Eh).
      destruct (IH (s ++ [Ok (fst r', map (fun x => place x (t' ++ snd r')) (snd r'), ms)]) p' _ _ _ _ (gr_rel _ _ _ _ _ _ G) F') as [B (p2 & G2)].
      split; auto. exists p2. eapply grows_trans; eauto.
  Qed.

  Lemma listen_alike h h' p t t' n c : reachable X h -> reachable X h' ->
    alike p (view h) (view h') -> Forall2 (linked p) t t' ->
    fst (listen Q E T X L n c [] t h) = fst (listen Q E T X L n c [] t' h').
  Proof.
    intros R R' A F. pose proof (alike_hrel p h h' (reachable_Inv _ _ R) (reachable_Inv _ _ R') A) as H.
    apply (listen_rel n c [] _ t t' h h' H). eapply F2_linked_incl; [|exact F].
    unfold with_hidden. intros x Hx. apply in_or_app; auto.
  Qed.
  Lemma listen_start h h' n c : reachable X h -> reachable X h' ->
    fst (listen Q E T X L n c [] [] h) = fst (listen Q E T X L n c [] [] h').
  Proof.
    intros R R'. apply (listen_alike h h' [] [] [] n c R R'); [|constructor].
    split; intros a b; [intros ? ? []|intros []].
  Qed.
End Listen.

Lemma listen_separate Q E T X L h S1 S2 t1 t2 n c m d : prints_no_address X -> reachable X h ->
  self_contained (view h) S1 -> self_contained (view h) S2 -> (forall a, In a S1 -> In a S2 -> False) ->
  incl t1 S1 -> incl t2 S2 ->
  fst (listen Q E T X L m d [] t2 (snd (listen Q E T X L n c [] t1 h))) = fst (listen Q E T X L m d [] t2 h).
Proof.
  intros NA R C1 C2 Dj T1 T2. pose proof (reachable_Inv _ _ R) as Iv.
  pose proof (self_alike _ _ C1) as A1. pose proof (self_alike _ _ C2) as A2.
  pose proof (alike_hrel _ _ _ Iv Iv A1) as H1. pose proof (alike_hrel _ _ _ Iv Iv A2) as H2.
  assert (F1 : Forall2 (linked (with_hidden (diag S1) h h)) t1 t1).
  { eapply F2_linked_incl; [|apply table_diag; eauto]. unfold with_hidden. intros x Hx. apply in_or_app; auto. }
  assert (F2 : Forall2 (linked (with_hidden (diag S2) h h)) t2 t2).
  { eapply F2_linked_incl; [|apply table_diag; eauto]. unfold with_hidden. intros x Hx. apply in_or_app; auto. }
  destruct (listen_rel Q E T X L NA n c [] _ t1 t1 h h H1 F1) as [_ (q & G)].
  assert (Eo : forall a b, In (a, b) (with_hidden (diag S2) h h) -> a = b /\ forall b', ~ In (a, b') (with_hidden (diag S1) h h)).
  { intros a b I. unfold with_hidden in I. apply in_app_or in I as [I|I].
    - pose proof I as I'. apply in_diag in I as [<- I]. split; auto. intros b' K. apply in_app_or in K as [K|K].
      + apply in_diag in K as [_ K]. eauto.
      + apply hidden_in in K as (x & y & mo & mo' & _ & E1 & _ & -> & ->).
        apply (proj1 (obj_not_owned (diag S2) h h Iv Iv A2 _ _ I')). exists x, mo; auto.
    - apply hidden_in in I as (x & y & mo & mo' & I & E1 & E' & -> & ->). apply in_diag in I as [<- I].
      split; [congruence|]. intros b' K. apply in_app_or in K as [K|K].
      + apply (proj1 (obj_not_owned (diag S1) h h Iv Iv A1 _ _ K)). exists x, mo; auto.
      + apply hidden_in in K as (u & v & mu & mv & K & Eu & _ & Q1 & _). apply in_diag in K as [_ K].
        assert (x = u) by (exact (inv_own _ Iv _ _ _ _ E1 Eu Q1)). subst u. eauto. }
  assert (H3 : hrel (with_hidden (diag S2) h h) (snd (listen Q E T X L n c [] t1 h)) h).
  { split; [apply H2|]. intros a b I. destruct (proj2 H2 _ _ I) as (x & x' & Hx & Hx' & Rx).
    exists x, x'. split; auto. destruct (Eo _ _ I) as [<- N].
    rewrite (gr_frame _ _ _ _ _ _ G); auto. eapply nth_error_lt; eauto. }
  apply (listen_rel Q E T X L NA m d [] _ t2 t2 _ _ H3 F2).
Qed.
