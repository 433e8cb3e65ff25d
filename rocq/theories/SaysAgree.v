(** * As many texts as errors: maps and arrays (proofs for C80) *)
From Coq Require Import Ascii String List NArith ZArith Bool Lia.
From Verif Require Import GoStr StrLemmas GoNum GoFloat NumLemmas Heap Common ValueModel ArrayModel MapModel RunesModel GetterModel
  MessageModel SpecDict DictLemmas SpecNum SpecWorld Inv World Reach MapFacts GetterFacts SpecDoc SpecRender ShowFacts SpecString IndexFacts
  SpecMessage MessageFacts SpecNamed SaysModel SpecSays SaysFacts SaysInts SaysRest SaysAll SaysLists.
Import ListNotations.
Local Open Scope Z_scope.

Section S.
  Context (Q : str -> str) (X : ext) (h : heap) (I : Inv h).

  Lemma via_agree {A} (nil : gres A) (get : loc -> res (gres A)) text (says : loc -> res (list str)) m k :
    has (w_map (view h)) m -> length text = length (errs_of nil) ->
    (forall v i, nth_error h v = Some (CVal i) -> rmap (@length str) (says v) = rmap (@length err) (rmap errs_of (get v))) ->
    rmap (@length str) (map_via text says h m k) = rmap (@length err) (rmap errs_of (map_via nil get h m k)).
  Proof.
    intros Hm L G.
    destruct (SpecWorld.object_at (view h) m k) as [i|] eqn:Ob.
    - destruct (nil_object i) eqn:N.
      + rewrite !(map_via_absent h I) by (auto; unfold absent; now rewrite Ob, N). cbn [rbind rmap]. now rewrite L.
      + destruct (map_via_present h I m k i Hm Ob N) as (v & V & _ & _ & E). rewrite !E. eauto.
    - rewrite !(map_via_absent h I) by (auto; unfold absent; now rewrite Ob). cbn [rbind rmap]. now rewrite L.
  Qed.
  Lemma get_agree {A} (nil : gres A) (get : loc -> res (gres A)) text (says : loc -> res (list str)) m k :
    has (w_map (view h)) m -> length text = length (errs_of nil) ->
    (forall v i, nth_error h v = Some (CVal i) -> rmap (@length str) (says v) = rmap (@length err) (rmap errs_of (get v))) ->
    rmap (@length str) (o <-r map_GetValue h m k ;; match o with None => Ok text | Some v => says v end)
    = rmap (@length err) (rmap errs_of (o <-r map_GetValue h m k ;; match o with None => Ok nil | Some v => get v end)).
  Proof.
    intros Hm L G. rewrite (map_GetValue_view h I) by auto. cbn [rbind].
    destruct (SpecWorld.object_at (view h) m k) as [i|] eqn:Ob.
    - destruct (object_at_Some h I _ _ _ Hm Ob) as (v & Dv & V & _). rewrite Dv. cbn [the]. eauto.
    - rewrite (object_at_None h I _ _ Hm Ob). cbn [rbind rmap]. now rewrite L.
  Qed.

  Lemma map_agree g m k : has (w_map (view h)) m ->
    rmap (@length str) (map_says Q X h g m k) = rmap (@length err) (map_errs X h g m k).
  Proof.
    intros Hm. pose proof (fun g v i V => value_agree Q X h I g v i V) as VA.
    destruct g as [kk|kk|kk|kk| | | | | | | | | | |]; cbn [map_errs].
    - destruct kk; try reflexivity; cbn [map_says]; unfold map_GetIntKind;
        (apply via_agree; [auto|reflexivity|]; match goal with |- forall v i, _ -> rmap _ (value_says _ _ _ ?g _) = _ => exact (VA g) end).
    - destruct kk; try reflexivity; cbn [map_says]; unfold map_GetIntKindValue;
        (apply via_agree; [auto|reflexivity|]; match goal with |- forall v i, _ -> rmap _ (value_says _ _ _ ?g _) = _ => exact (VA g) end).
    - destruct kk; cbn [map_says]; (apply via_agree; [auto|reflexivity|]; match goal with |- forall v i, _ -> rmap _ (value_says _ _ _ ?g _) = _ => exact (VA g) end).
    - destruct kk; cbn [map_says]; (apply via_agree; [auto|reflexivity|]; match goal with |- forall v i, _ -> rmap _ (value_says _ _ _ ?g _) = _ => exact (VA g) end).
    - cbn [map_says]. apply via_agree; [auto|reflexivity|]. exact (VA QStr).
    - cbn [map_says]. apply via_agree; [auto|reflexivity|]. exact (VA QStrV).
    - cbn [map_says]. apply via_agree; [auto|reflexivity|]. exact (VA QBool).
    - reflexivity.
    - cbn [map_says]. apply get_agree; [auto|reflexivity|]. exact (VA QMap).
    - cbn [map_says]. apply get_agree; [auto|reflexivity|]. exact (VA QMapV).
    - cbn [map_says]. apply via_agree; [auto|reflexivity|]. exact (VA QArr).
    - cbn [map_says]. unfold map_GetArrayValue, map_GetArray.
      assert (A : agree (map_via (GVal None) (value_GetArray X h) h m k) (map_via [] (value_says Q X h QArr) h m k)).
      { apply via_agree; [auto|reflexivity|]. exact (VA QArr). }
      pose proof (agree_nil (lit "json.Map.GetArrayValue array is nil") _ _ A) as B. unfold agree in B. rewrite <- B. clear B.
      destruct (agree_cases _ _ A) as [(r & ms & -> & -> & L)|[[-> ->]|[[-> ->]|[-> ->]]]]; try reflexivity.
    - cbn [map_says]. apply via_agree; [auto|reflexivity|]. exact (VA QErrs).
    - cbn [map_says]. apply via_agree; [auto|reflexivity|]. exact (VA QFunc).
    - cbn [map_says]. apply via_agree; [auto|reflexivity|]. exact (VA QRunes).
  Qed.

  (** ** Arrays *)
  Lemma ptr_agree {A} (get : loc -> res (gres (option A))) (says : loc -> res (list str)) l :
    Forall (fun o => forall w, o = Some w -> exists j, nth_error h w = Some (CVal j)) l ->
    (forall v i, nth_error h v = Some (CVal i) -> rmap (@length str) (says v) = rmap (@length err) (rmap errs_of (get v))) ->
    rmap (@length str) (collect_says [] says l) = rmap (fun q => length (snd q)) (collect_ptr get l).
  Proof.
    intros Fl G. induction Fl as [|o l Ho _ IH]; [reflexivity|]. destruct o as [w|]; cbn [collect_says collect_ptr].
    - destruct (Ho w eq_refl) as [i V]. specialize (G w i V).
      destruct (says w) as [m| | |], (get w) as [r| | |]; try discriminate G; try reflexivity; cbn [rbind].
      destruct (collect_says [] says l) as [ms| | |], (collect_ptr get l) as [q| | |]; try discriminate IH; try reflexivity.
      cbn in *. injection G as G. injection IH as IH. rewrite app_length, G, IH. destruct r; cbn [errs_of fst snd length]; auto.
      now rewrite app_length.
    - destruct (collect_says [] says l) as [ms| | |], (collect_ptr get l) as [q| | |]; try discriminate IH; try reflexivity. exact IH.
  Qed.
  Lemma val_agree {A} t (get : loc -> res (gres A)) (says : loc -> res (list str)) l :
    Forall (fun o => forall w, o = Some w -> exists j, nth_error h w = Some (CVal j)) l ->
    (forall v i, nth_error h v = Some (CVal i) -> rmap (@length str) (says v) = rmap (@length err) (rmap errs_of (get v))) ->
    rmap (@length str) (collect_says [t] says l) = rmap (fun q => length (snd q)) (collect_val get l).
  Proof.
    intros Fl G. induction Fl as [|o l Ho _ IH]; [reflexivity|]. destruct o as [w|]; cbn [collect_says collect_val].
    - destruct (Ho w eq_refl) as [i V]. specialize (G w i V).
      destruct (says w) as [m| | |], (get w) as [r| | |]; try discriminate G; try reflexivity; cbn [rbind].
      destruct (collect_says [t] says l) as [ms| | |], (collect_val get l) as [q| | |]; try discriminate IH; try reflexivity.
      cbn in *. injection G as G. injection IH as IH. rewrite app_length, G, IH. destruct r; cbn [errs_of fst snd length]; auto.
      now rewrite app_length.
    - destruct (collect_says [t] says l) as [ms| | |], (collect_val get l) as [q| | |]; try discriminate IH; try reflexivity.
      cbn in *. congruence.
  Qed.
  Lemma finish_agree {A} (q : list A * list err) : length (errs_of (finish q)) = length (snd q).
  Proof. unfold finish. destruct (snd q); reflexivity. Qed.

  Lemma arr_ptr_agree {A} (get : loc -> res (gres (option A))) (says : loc -> res (list str)) a l : rd_arr h a = Ok l ->
    (forall v i, nth_error h v = Some (CVal i) -> rmap (@length str) (says v) = rmap (@length err) (rmap errs_of (get v))) ->
    rmap (@length str) (l <-r rd_arr h a ;; collect_says [] says l) = rmap (@length err) (rmap errs_of (arr_collect_ptr get h a)).
  Proof.
    intros E G. unfold arr_collect_ptr. rewrite E. cbn [rbind].
    pose proof (ptr_agree get says l (arr_vals h I a l E) G) as P. rewrite P.
    destruct (collect_ptr get l); try reflexivity. cbn. now rewrite finish_agree.
  Qed.
  Lemma arr_val_agree {A} t (get : loc -> res (gres A)) (says : loc -> res (list str)) a l : rd_arr h a = Ok l ->
    (forall v i, nth_error h v = Some (CVal i) -> rmap (@length str) (says v) = rmap (@length err) (rmap errs_of (get v))) ->
    rmap (@length str) (l <-r rd_arr h a ;; collect_says [t] says l) = rmap (@length err) (rmap errs_of (arr_collect_val get h a)).
  Proof.
    intros E G. unfold arr_collect_val. rewrite E. cbn [rbind].
    pose proof (val_agree t get says l (arr_vals h I a l E) G) as P. rewrite P.
    destruct (collect_val get l); try reflexivity. cbn. now rewrite finish_agree.
  Qed.

  Lemma array_agree g a l : rd_arr h a = Ok l ->
    rmap (@length str) (array_of_says Q X h g a) = rmap (@length err) (array_of_errs X h g a).
  Proof.
    intros E. pose proof (fun g v i V => value_agree Q X h I g v i V) as VA.
    destruct g as [kk|kk|kk|kk| | | | | | | | | | |]; try reflexivity.
    - destruct kk; try reflexivity; cbn [array_of_says array_of_errs]; unfold arr_GetArrayOfIntKind; apply (arr_ptr_agree _ _ _ _ E);
        match goal with |- forall v i, _ -> rmap _ (value_says _ _ _ ?g _) = _ => exact (VA g) end.
    - destruct kk; try reflexivity; cbn [array_of_says array_of_errs]; unfold arr_GetArrayOfIntKindValue; apply (arr_val_agree _ _ _ _ _ E);
        match goal with |- forall v i, _ -> rmap _ (value_says _ _ _ ?g _) = _ => exact (VA g) end.
    - destruct kk; apply (arr_ptr_agree _ _ _ _ E); match goal with |- forall v i, _ -> rmap _ (value_says _ _ _ ?g _) = _ => exact (VA g) end.
    - destruct kk; apply (arr_val_agree _ _ _ _ _ E); match goal with |- forall v i, _ -> rmap _ (value_says _ _ _ ?g _) = _ => exact (VA g) end.
    - apply (arr_ptr_agree _ _ _ _ E). exact (VA QStr).
    - apply (arr_val_agree _ _ _ _ _ E). exact (VA QStrV).
    - apply (arr_ptr_agree _ _ _ _ E). exact (VA QBool).
    - apply (arr_val_agree _ _ _ _ _ E). exact (VA QBoolV).
  Qed.

  Lemma elem_agree {A} (get : loc -> res (gres A)) (says : loc -> res (list str)) a l n : rd_arr h a = Ok l ->
    (forall v i, nth_error h v = Some (CVal i) -> rmap (@length str) (says v) = rmap (@length err) (rmap errs_of (get v))) ->
    (forall v e, get v = Ok (GErr e) -> e <> []) ->
    agree (arr_elem h a n get) (arr_elem_says h says a n).
  Proof.
    intros E G NE. unfold agree, arr_elem, arr_elem_says. rewrite E. cbn [rbind].
    destruct (n <? 0); [reflexivity|]. destruct (_ <? n); [reflexivity|].
    destruct (nth_error l (Z.to_nat n)) as [[v|]|] eqn:N; try reflexivity.
    pose proof (arr_vals h I a l E) as Ho. rewrite Forall_forall in Ho.
    destruct (Ho _ (nth_error_In _ _ N) v eq_refl) as [i V]. specialize (G v i V). specialize (NE v).
    destruct (says v) as [m| | |], (get v) as [r| | |]; try discriminate G; try reflexivity. cbn in *. injection G as G.
    destruct r as [x|e]; cbn [errs_of] in *.
    - destruct m; [reflexivity|discriminate G].
    - specialize (NE e eq_refl). destruct m, e; try congruence; try discriminate G. reflexivity.
  Qed.
  Lemma string_at_agree a l n : rd_arr h a = Ok l ->
    rmap (@length str) (arr_string_says X h a n) = rmap (@length err) (rmap errs_of (arr_GetStringValue X h a n)).
  Proof.
    intros E. apply (elem_agree _ _ a l n E).
    - exact (fun v i V => value_agree Q X h I QStrV v i V).
    - intros v e. unfold value_GetStringValue. destruct (value_GetString X v h) as [[[o|e'] h']| | |] eqn:R; try discriminate; cbn [rbind].
      + destruct o as [p|].
        * destruct (rd_ptr h' p) as [[]| | |]; discriminate.
        * intros H. injection H as <-. discriminate.
      + exfalso. clear E. unfold value_GetString in R. destruct (rd_val h v) as [i| | |]; try discriminate R. cbn [rbind] in R.
        destruct (iface_IsNil X i); [discriminate R|]. destruct i; try discriminate R; [destruct s|destruct t]; discriminate R.
  Qed.
  Lemma map_at_agree a l n : rd_arr h a = Ok l ->
    rmap (@length str) (arr_map_says X h a n) = rmap (@length err) (rmap errs_of (arr_GetMap X h a n)).
  Proof.
    intros E. unfold arr_GetMap, arr_map_says. apply agree_nil. apply (elem_agree _ _ a l n E).
    - exact (fun v i V => value_agree Q X h I QMap v i V).
    - intros v e. unfold value_GetMap. destruct (rd_val h v) as [i| | |]; try discriminate. cbn [rbind].
      destruct (iface_IsNil X i); [discriminate|]. destruct i; try discriminate; intros H; injection H as <-; discriminate.
  Qed.

  (** ** Changes *)
  Lemma set_at_agree a l n o : rd_arr h a = Ok l ->
    exists e h', arr_SetValueAtIndex a n o h = Ok (e, h') /\ (e = None <-> at_index_says h a n = Ok []).
  Proof.
    intros E. unfold arr_SetValueAtIndex, at_index_says. rewrite E. cbn [rbind].
    destruct (n <? 0); [do 2 eexists; split; [reflexivity|]; split; discriminate|].
    destruct (_ <? n); [do 2 eexists; split; [reflexivity|]; split; discriminate|].
    apply rd_arr_iff in E. assert (L : (a < length h)%nat) by (apply nth_error_Some; congruence).
    unfold bind, wr, ret. rewrite (proj2 (Nat.ltb_lt _ _) L). do 2 eexists. split; [reflexivity|]. tauto.
  Qed.
  Lemma remove_at_agree a l n : rd_arr h a = Ok l ->
    exists e h', arr_RemoveValueAtIndex a n h = Ok (e, h') /\ (e = None <-> at_index_says h a n = Ok []).
  Proof.
    intros E. unfold arr_RemoveValueAtIndex, at_index_says. rewrite E. cbn [rbind].
    destruct (n <? 0); [do 2 eexists; split; [reflexivity|]; split; discriminate|].
    destruct (_ <? n); [do 2 eexists; split; [reflexivity|]; split; discriminate|].
    apply rd_arr_iff in E. assert (L : (a < length h)%nat) by (apply nth_error_Some; congruence).
    unfold bind, wr, ret. rewrite (proj2 (Nat.ltb_lt _ _) L). do 2 eexists. split; [reflexivity|]. tauto.
  Qed.
  Lemma remove_key_agree m k : has (w_map (view h)) m ->
    exists b e h', map_RemoveKey m k h = Ok ((b, e), h') /\ (e = None <-> remove_key_says h m k = Ok []).
  Proof.
    intros Hm. pose proof (has_map _ _ _ (view_impl h I) Hm) as MD. pose proof (map_RemoveKey_ok h m _ k I MD) as R.
    pose proof (remove_key_iff h I m k) as K. unfold remove_texts in K.
    assert (D : dict_has (map_at (view h) m) k = true <-> In k (dict_keys (map_at (view h) m))).
    { unfold dict_has. pose proof (dict_get_None (map_at (view h) m) k) as DN. fold (dict_keys (map_at (view h) m)) in DN.
      destruct (dict_get (map_at (view h) m) k) as [o|] eqn:D.
      - split; auto. intros _. apply dict_get_In in D. unfold dict_keys. change k with (fst (k, o)). now apply in_map.
      - split; [discriminate|]. intros H. now apply DN in H. }
    destruct (dict_has (map_at (view h) m) k) eqn:Dk.
    - destruct R as (h' & R & _). exists true, None, h'. split; [exact R|]. split; [|reflexivity]. intros _. apply K; auto.
      left. split; [now apply D|reflexivity].
    - exists false, (Some EKeyMap), h. split; [exact R|]. split; [discriminate|]. intros H. apply K in H; auto.
      destruct H as [[H _]|[_ H]]; [|discriminate H]. apply D in H. discriminate H.
  Qed.
End S.
