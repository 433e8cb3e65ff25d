(** * The texts of the getters' errors: the statements (proofs for C80) *)
From Coq Require Import Ascii String List NArith ZArith Bool Lia.
From Verif Require Import GoStr GoNum GoFloat Heap Common ValueModel ArrayModel MapModel RunesModel GetterModel SpecDict SpecNum SpecWorld
  Inv World Reach SaysModel SpecSays SaysFacts SaysInts SaysRest SaysAll SaysLists SaysAgree SaysMapLists.
Import ListNotations.
Local Open Scope Z_scope.

Lemma value_texts Q X h g v i ms :
  reachable X h -> nth_error h v = Some (CVal i) -> typed_ints X h i ->
  value_says Q X h g v = Ok ms <-> texts Q X h g i ms.
Proof. intros R. apply value_says_iff. exact (reachable_Inv _ _ R). Qed.

Lemma map_texts_iff Q X h g m k ms :
  reachable X h -> has (w_map (view h)) m ->
  (forall i, object_at (view h) m k = Some i -> typed_ints X h i) ->
  map_says Q X h g m k = Ok ms <-> map_texts Q X h (view h) g m k ms.
Proof. intros R. apply map_says_iff. exact (reachable_Inv _ _ R). Qed.

Lemma key_blind Q X h g m k m' k' ms :
  reachable X h -> has (w_map (view h)) m -> has (w_map (view h)) m' ->
  (forall i, object_at (view h) m k = Some i -> typed_ints X h i) ->
  object_at (view h) m k = object_at (view h) m' k' ->
  map_says Q X h g m k = Ok ms -> map_says Q X h g m' k' = Ok ms.
Proof.
  intros R Hm Hm' F E H. apply (map_texts_iff Q X h g m k ms R Hm F) in H.
  assert (F' : forall i, object_at (view h) m' k' = Some i -> typed_ints X h i) by (rewrite <- E; exact F).
  apply (map_texts_iff Q X h g m' k' ms R Hm' F'). inversion H; subst.
  - apply mt_missing; auto. congruence.
  - eapply mt_nil; eauto; congruence.
  - eapply mt_value; eauto; congruence.
  - eapply mt_array_nil; eauto; congruence.
  - eapply mt_array; eauto; congruence.
Qed.

Lemma array_texts Q X h g null a l ms :
  reachable X h -> array_getter g null -> nth_error h a = Some (CArr l) ->
  (forall v i, In (Some v) l -> nth_error h v = Some (CVal i) -> typed_ints X h i) ->
  array_of_says Q X h g a = Ok ms <-> list_texts Q X h null g l ms.
Proof. intros R G E. apply array_of_iff; auto. exact (reachable_Inv _ _ R). now apply rd_arr_iff. Qed.

Lemma map_array_texts Q X h g null nil m k ms :
  reachable X h -> map_list_getter g null nil -> has (w_map (view h)) m ->
  (forall v i, nth_error h v = Some (CVal i) -> typed_ints X h i) ->
  map_list_says Q X h g m k = Ok ms <-> map_list_texts Q X h (view h) g null nil m k ms.
Proof. intros R G Hm F. apply map_list_iff; auto. exact (reachable_Inv _ _ R). intros; eapply F; eauto. Qed.

Lemma element_texts_iff Q X h a l n ms :
  reachable X h -> nth_error h a = Some (CArr l) ->
  (arr_string_says X h a n = Ok ms <-> element_texts Q X h QStrV [] l n ms)
  /\ (arr_map_says X h a n = Ok ms <-> element_texts Q X h QMap [lit "Array.GetStringValue value is nil"] l n ms).
Proof.
  intros R E. apply rd_arr_iff in E. pose proof (reachable_Inv _ _ R) as I.
  split; [now apply string_at_iff|now apply map_at_iff].
Qed.

Lemma change_texts X h a l m k n ms :
  reachable X h -> nth_error h a = Some (CArr l) -> has (w_map (view h)) m ->
  (at_index_says h a n = Ok ms <-> index_texts l n ms)
  /\ (remove_key_says h m k = Ok ms <-> remove_texts (map_at (view h) m) k ms).
Proof.
  intros R E Hm. apply rd_arr_iff in E. pose proof (reachable_Inv _ _ R) as I.
  split; [now apply at_index_iff|now apply remove_key_iff].
Qed.

Lemma as_many Q X h g v i m k a l n o :
  reachable X h -> nth_error h v = Some (CVal i) -> has (w_map (view h)) m -> nth_error h a = Some (CArr l) ->
  rmap (@length str) (value_says Q X h g v) = rmap (@length err) (value_errs X h g v)
  /\ rmap (@length str) (map_says Q X h g m k) = rmap (@length err) (map_errs X h g m k)
  /\ rmap (@length str) (array_of_says Q X h g a) = rmap (@length err) (array_of_errs X h g a)
  /\ rmap (@length str) (map_list_says Q X h g m k) = rmap (@length err) (map_list_errs X h g m k)
  /\ rmap (@length str) (arr_string_says X h a n) = rmap (@length err) (rmap errs_of (arr_GetStringValue X h a n))
  /\ rmap (@length str) (arr_map_says X h a n) = rmap (@length err) (rmap errs_of (arr_GetMap X h a n))
  /\ (exists e h', arr_SetValueAtIndex a n o h = Ok (e, h') /\ (e = None <-> at_index_says h a n = Ok []))
  /\ (exists e h', arr_RemoveValueAtIndex a n h = Ok (e, h') /\ (e = None <-> at_index_says h a n = Ok []))
  /\ (exists b e h', map_RemoveKey m k h = Ok ((b, e), h') /\ (e = None <-> remove_key_says h m k = Ok [])).
Proof.
  intros R V Hm E. apply rd_arr_iff in E. pose proof (reachable_Inv _ _ R) as I.
  split; [eapply value_agree; eauto|]. split; [now apply map_agree|]. split; [eapply array_agree; eauto|].
  split; [now apply map_list_agree|].
  split; [eapply string_at_agree; eauto|]. split; [eapply map_at_agree; eauto|]. split; [eapply set_at_agree; eauto|].
  split; [eapply remove_at_agree; eauto|]. now apply remove_key_agree.
Qed.
