(** * Programs cannot tell apart states with the same content *)
From Coq Require Import Ascii String List NArith ZArith Bool Lia.
From Verif Require Import GoStr StrLemmas GoNum GoFloat Heap Common ValueModel ArrayModel MapModel JsonModel ParserModel
  GetterModel NamedModel PtrModel PtrListModel TimeModel SpecDict DictLemmas SpecWorld Inv World Reach SpecAlike ClientModel
  AlikeFacts AlikeRead AlikeWrite.
Import ListNotations.

(** ** Calls *)

Definition out_rel (q : links) (a b : out) : Prop :=
  match a, b with
  | OHandle n, OHandle m => linked q n m
  | OValue o, OValue o' => same_handle q o o'
  | OElems l, OElems l' => Forall2 (same_handle q) l l'
  | OObj i, OObj j => same_held q i j
  | _, _ => a = b
  end.
Definition reply_rel (q : links) (a b : reply) : Prop := fst a = fst b /\ Forall2 (linked q) (snd a) (snd b).

Lemma zero_handle q o o' : same_handle q o o' -> option_map zero o = option_map zero o' /\ Forall2 (linked q) (oh o) (oh o').
Proof. destruct o, o'; cbn; try tauto; intros; split; auto. Qed.
Lemma zero_handles q l l' : Forall2 (same_handle q) l l' -> olist_zero l = olist_zero l' /\ Forall2 (linked q) (ohs l) (ohs l').
Proof.
  induction 1 as [|o o' l l' R _ [A B]]; cbn; auto. destruct (zero_handle _ _ _ R) as [C D].
  split; [unfold olist_zero in *; congruence | now apply Forall2_app].
Qed.
Lemma zero_held q i j : same_held q i j -> rename_iface zero i = rename_iface zero j /\ Forall2 (linked q) (iface_handles i) (iface_handles j).
Proof.
  intros [i' N| | | | | | |]; cbn; try (split; [reflexivity | repeat constructor; auto; fail]).
  split; auto. destruct i' as [| |? [?|]|?|[?|]|?|[?|]|?|[?|]| | | | | | | | | | |]; try discriminate N; constructor.
Qed.
Lemma out_reply_rel q a b : out_rel q a b -> reply_rel q (out_reply a) (out_reply b).
Proof.
  destruct a, b; cbn; intros H; try discriminate H; try (inversion H; subst; split; cbn; auto; fail).
  - split; cbn; auto.
  - destruct (zero_handle _ _ _ H) as [A B]. split; cbn; congruence || auto.
  - destruct (zero_handles _ _ _ H) as [A B]. split; cbn; congruence || auto.
  - destruct (zero_held _ _ _ H) as [A B]. split; cbn; congruence || auto.
Qed.
Lemma answer_reply_rel q a b : answer_rel q a b -> reply_rel q (answer_reply a) (answer_reply b).
Proof.
  destruct a, b; cbn; intros H; try discriminate H; try (inversion H; subst; split; cbn; auto; fail).
  - destruct (zero_handle _ _ _ H) as [A B]. split; cbn; congruence || auto.
  - destruct (zero_held _ _ _ H) as [A B]. split; cbn; congruence || auto.
  - destruct r, r0; cbn in H; try tauto; [|subst; split; cbn; auto].
    destruct (zero_handle _ _ _ H) as [A B]. split; cbn; congruence || auto.
  - destruct r, r0; cbn in H; try tauto; [|subst; split; cbn; auto]. split; cbn; auto.
Qed.
Lemma ptr_reply_rel q a b : rgo q a b -> reply_rel q (ptr_reply a) (ptr_reply b).
Proof.
  intros H. destruct a, b; cbn in H; try tauto; [|subst; split; cbn; auto].
  destruct (zero_handle _ _ _ H) as [A B]. split; cbn; congruence || auto.
Qed.
Lemma loc_reply_rel q a b : rgl q a b -> reply_rel q (loc_reply a) (loc_reply b).
Proof. intros H. destruct a, b; cbn in H; try tauto; [|subst; split; cbn; auto]. split; cbn; auto. Qed.
Lemma ptrs_reply_rel q a b : rgll q a b -> reply_rel q (ptrs_reply a) (ptrs_reply b).
Proof.
  intros H. destruct a, b; cbn in H; try tauto; [|subst; split; cbn; auto].
  destruct (zero_handles _ _ _ H) as [A B]. split; cbn; congruence || auto.
Qed.
Lemma map_ptrs_reply_rel q a b : rgoll q a b -> reply_rel q (map_ptrs_reply a) (map_ptrs_reply b).
Proof.
  intros H. destruct a as [[l|]|], b as [[l'|]|]; cbn in H; try tauto; [| |subst; split; cbn; auto].
  - destruct (zero_handles _ _ _ H) as [A B]. split; cbn; congruence || auto.
  - split; cbn; auto.
Qed.

(** Renamed arguments. *)
Lemma rename_held p f g i : (forall n, In n (iface_handles i) -> In (f n, g n) p) ->
  same_held p (rename_iface f i) (rename_iface g i).
Proof.
  intros H. destruct i as [| |? [?|]|?|[?|]|?|[?|]|?|[?|]| | | | | | | | | | |]; cbn in *; constructor; auto.
Qed.
Lemma rename_handle p f g o : (forall n, In n (oh o) -> In (f n, g n) p) ->
  same_handle p (option_map f o) (option_map g o).
Proof. intros H. destruct o; cbn in *; auto. Qed.

Lemma answer_rel_incl p q a b : incl p q -> out_rel p a b -> out_rel q a b.
Proof.
  intros I. destruct a, b; cbn; auto;
    [apply I | apply same_handle_incl; auto | apply handles_incl; auto | apply same_held_incl; auto].
Qed.
Lemma mrel_out {A B} p (R : links -> A -> B -> Prop) x y f g :
  mrel p R x y -> (forall q a b, R q a b -> out_rel q (f a) (g b)) ->
  mrel p out_rel (bind x (fun a => ret (f a))) (bind y (fun b => ret (g b))).
Proof.
  intros H K. eapply mrel_bind; [exact H|]. intros q a b I Rab. apply mrel_ret. intros r J.
  eapply answer_rel_incl; eauto.
Qed.
Lemma linked_incl p q a b : incl p q -> linked p a b -> linked q a b.
Proof. intros I. apply I. Qed.

Ltac same := intros ? ? ?; let E := fresh in intros E; cbv beta delta [req] in E; subst; cbn; auto.

Lemma run_call_rel p f g c : (forall n, In n (api_handles c) -> In (f n, g n) p) ->
  mrel p out_rel (run_call (rename_api f c)) (run_call (rename_api g c)).
Proof.
  intros H. assert (W : forall m n i, (forall k, In k (m :: iface_handles i) -> In (f k, g k) p) -> n = m ->
     In (f m, g m) p /\ same_held p (rename_iface f i) (rename_iface g i)).
  { intros m n i K _. split; [apply K; cbn; auto | apply rename_held; intros k Hk; apply K; cbn; auto]. }
  assert (V : forall m o, (forall k, In k (m :: oh o) -> In (f k, g k) p) ->
     In (f m, g m) p /\ same_handle p (option_map f o) (option_map g o)).
  { intros m o K. split; [apply K; cbn; auto | apply rename_handle; intros k Hk; apply K; cbn; auto]. }
  destruct c; cbn [rename_api run_call api_handles] in *.
  - eapply mrel_out; [apply alloc_rel; reflexivity|]. intros q a b L. exact L.
  - eapply mrel_out; [apply wr_rel; [apply H; cbn; auto | reflexivity]|]. same.
  - eapply mrel_out; [apply (mrel_lift p req); intros q h h' I Hh; apply (rd_ptr_rel q h h' Hh); apply I, H; cbn; auto|]. same.
  - eapply mrel_out; [apply new_value_rel; now apply rename_held|]. intros q a b L. exact L.
  - eapply mrel_out; [apply new_array_rel|]. intros q a b L. exact L.
  - eapply mrel_out; [apply new_map_rel|]. intros q a b L. exact L.
  - destruct (V _ _ H). eapply mrel_out; [apply map_setInternal_rel; auto|]. same.
  - destruct (W _ _ _ H eq_refl). eapply mrel_out; [apply map_SetObject_rel; auto|]. same.
  - eapply mrel_out; [apply map_SetScalarValue_rel; apply H; cbn; auto|]. same.
  - eapply mrel_out; [apply map_RemoveKey_rel; apply H; cbn; auto|]. same.
  - eapply mrel_out; [apply (mrel_lift p req); intros q h h' I Hh; apply (map_HasKey_rel q h h' Hh); apply I, H; cbn; auto|]. same.
  - eapply mrel_out; [apply (mrel_lift p rh); intros q h h' I Hh; apply (map_GetValue_rel q h h' Hh); apply I, H; cbn; auto|].
    intros q a b L. exact L.
  - eapply mrel_out; [apply (mrel_lift p req); intros q h h' I Hh; apply (map_GetKeys_rel q h h' Hh); apply I, H; cbn; auto|]. same.
  - eapply mrel_bind; [apply (mrel_lift p linked); intros q h h' I Hh; apply (map_Values_rel q h h' Hh); apply I, H; cbn; auto|].
    intros q a b I L.
    eapply mrel_out; [apply (mrel_lift q (fun r => Forall2 (same_handle r))); intros r h h' J Hh; apply (rd_arr_rel r h h' Hh); apply J, L|].
    intros r x y Lx. exact Lx.
  - destruct (V _ _ H). eapply mrel_out; [apply arr_AppendValue_rel; auto|]. same.
  - destruct (W _ _ _ H eq_refl). eapply mrel_out; [apply arr_AppendObject_rel; auto|]. same.
  - destruct (V _ _ H). eapply mrel_out; [apply arr_SetValueAtIndex_rel; auto|]. same. destruct b; cbn; auto.
  - eapply mrel_out; [apply arr_RemoveValueAtIndex_rel; apply H; cbn; auto|]. same. destruct b; cbn; auto.
  - eapply mrel_out; [apply (mrel_lift p req); intros q h h' I Hh; apply (arr_Len_rel q h h' Hh); apply I, H; cbn; auto|]. same.
  - eapply mrel_out; [apply (mrel_lift p (fun r => Forall2 (same_handle r))); intros r h h' J Hh; apply (rd_arr_rel r h h' Hh); apply J, H; cbn; auto|].
    intros r x y Lx. exact Lx.
  - destruct (W _ _ _ H eq_refl). eapply mrel_out; [apply value_SetObject_rel; auto|]. same.
  - eapply mrel_out; [apply (mrel_lift p same_held); intros q h h' I Hh; apply (value_GetObject_rel q h h' Hh); apply I, H; cbn; auto|].
    intros q a b L. exact L.
Qed.

Lemma reply_rel_incl p q a b : incl p q -> reply_rel p a b -> reply_rel q a b.
Proof. intros I [A B]. split; auto. eapply F2_linked_incl; eauto. Qed.
Lemma mrel_reply {A B} p (R : links -> A -> B -> Prop) x y f g :
  mrel p R x y -> (forall q a b, R q a b -> reply_rel q (f a) (g b)) ->
  mrel p reply_rel (bind x (fun a => ret (f a))) (bind y (fun b => ret (g b))).
Proof.
  intros H K. eapply mrel_bind; [exact H|]. intros q a b I Rab. apply mrel_ret. intros r J.
  eapply reply_rel_incl; eauto.
Qed.
Ltac same_r := intros ? ? ?; let E := fresh in intros E; cbv beta delta [req] in E; subst; split; cbn; auto.
Ltac reader E := apply (mrel_lift _ req); intros q h h' I Hh; eapply E; eauto; apply I; auto.

Lemma ask_rel X L (NA : prints_no_address X) p f g c : (forall n, In n (request_handles c) -> In (f n, g n) p) ->
  mrel p reply_rel (ask X L (rename f c)) (ask X L (rename g c)).
Proof.
  intros H. destruct c; cbn [rename ask request_handles] in *;
    try (assert (H1 := H _ (or_introl eq_refl))).
  - eapply mrel_reply; [now apply run_call_rel | apply out_reply_rel].
  - eapply mrel_reply; [apply (mrel_lift p answer_rel); intros q h h' I Hh; eapply run_getter_rel; eauto | apply answer_reply_rel].
  - eapply mrel_reply; [apply (mrel_lift p answer_rel); intros q h h' I Hh; eapply run_vgetter_rel; eauto | apply answer_reply_rel].
  - eapply mrel_reply; [now apply map_ptr_rel | apply ptr_reply_rel].
  - eapply mrel_reply; [now apply value_ptr_rel | apply ptr_reply_rel].
  - eapply mrel_reply; [now apply arr_ptrs_rel | apply ptrs_reply_rel].
  - eapply mrel_reply; [now apply map_ptrs_rel | apply map_ptrs_reply_rel].
  - eapply mrel_reply; [reader run_lgetter_rel | same_r].
  - eapply mrel_reply; [reader run_mgetter_rel | same_r].
  - eapply mrel_reply; [reader value_GetRunes_rel | same_r].
  - eapply mrel_reply; [reader map_GetRunes_rel | same_r].
  - eapply mrel_reply; [reader arr_GetStringValue_rel | same_r].
  - eapply mrel_reply; [apply (mrel_lift p rgl); intros q h h' I Hh; eapply arr_GetMap_rel; eauto | apply loc_reply_rel].
  - eapply mrel_reply; [reader value_IsEqualToString_rel | same_r].
  - eapply mrel_reply; [reader map_IsNil_rel | same_r].
  - eapply (mrel_reply p linked); [apply (mrel_lift p linked); intros q h h' I Hh; eapply map_Values_rel; eauto|].
    intros q a b Lab. apply loc_reply_rel. exact Lab.
  - eapply mrel_reply; [apply (mrel_lift p req); intros q h h' I Hh; eapply conv_string_rel; eauto; eapply same_held_incl; [exact I|]; now apply rename_held | same_r].
  - eapply mrel_reply; [reader map_ToJSONString_rel | same_r].
  - eapply mrel_reply; [reader arr_ToJSONString_rel | same_r].
  - eapply mrel_reply; [apply (mrel_lift p req); intros q h h' I Hh; eapply conv_json_rel; eauto; eapply same_held_incl; [exact I|]; now apply rename_held | same_r].
  - eapply mrel_reply; [now apply clone_rel | apply loc_reply_rel].
  - eapply mrel_reply; [apply Parse_rel | apply ptr_reply_rel].
  - eapply (mrel_reply p linked).
    + unfold new_array_of_values. eapply mrel_bind; [apply new_array_rel|]. intros q a b I K.
      destruct l as [l|]; cbn [option_map].
      * eapply mrel_bind; [apply arr_append_all_rel; [exact K|]|intros r ? ? J _; apply mrel_ret; intros s Js; apply Js, J, K].
        clear -H I. induction l as [|i l IH]; cbn; constructor.
        -- eapply same_held_incl; [exact I|]. apply rename_held. intros n Hn. apply H. cbn. apply in_or_app; auto.
        -- apply IH. intros n Hn. apply H. cbn. apply in_or_app; auto.
      * apply mrel_ret. intros s Js. apply Js, K.
    + intros q a b Lab. apply loc_reply_rel. exact Lab.
  - eapply (mrel_reply p linked).
    + unfold new_map_of_values. eapply mrel_bind; [apply new_map_rel|]. intros q a b I K.
      destruct l as [l|]; cbn [option_map].
      * eapply mrel_bind; [apply map_put_all_rel; [exact K|]|intros r ? ? J _; apply mrel_ret; intros s Js; apply Js, J, K].
        clear -H I. induction l as [|[k i] l IH]; cbn; constructor.
        -- split; auto. cbn. eapply same_held_incl; [exact I|]. apply rename_held. intros n Hn. apply H. cbn. apply in_or_app; auto.
        -- apply IH. intros n Hn. apply H. cbn. apply in_or_app; auto.
      * apply mrel_ret. intros s Js. apply Js, K.
    + intros q a b Lab. apply loc_reply_rel. exact Lab.
  - eapply mrel_reply; [reader value_time_rel | same_r].
  - eapply mrel_reply; [reader value_GetTimeValue_rel | same_r].
  - eapply mrel_reply; [apply (mrel_lift p req); intros q h h' I Hh; eapply map_via_eq; eauto; intros v w K; eapply value_time_rel; eauto | same_r].
Qed.

(** ** Programs *)

Lemma place_rel p t t' x y : one_to_one p -> Forall2 (linked p) t t' -> In (x, y) p -> place x t = place y t'.
Proof.
  intros O F K. induction F as [|a b t t' L F IH]; cbn; auto. rewrite IH.
  pose proof (O _ _ _ _ L K) as E.
  destruct (Nat.eqb_spec a x), (Nat.eqb_spec b y); auto; tauto.
Qed.
Lemma places_rel p t t' l l' : one_to_one p -> Forall2 (linked p) t t' -> Forall2 (linked p) l l' ->
  map (fun x => place x t) l = map (fun x => place x t') l'.
Proof. intros O F K. induction K as [|x y l l' Lx K IH]; cbn; auto. rewrite IH. f_equal. now apply (place_rel p). Qed.
Lemma table_rel p t t' n : Forall2 (linked p) t t' -> n < length t -> In (nth n t 0, nth n t' 0) p.
Proof. intros F. revert n. induction F; intros [|n] L; cbn in *; try lia; auto. apply IHF. lia. Qed.

Lemma play_rel X L (NA : prints_no_address X) n c : forall s p t t' h h', hrel p h h' -> Forall2 (linked p) t t' ->
  fst (play X L n c s t h) = fst (play X L n c s t' h')
  /\ exists q, grows p h h' q (snd (play X L n c s t h)) (snd (play X L n c s t' h')).
Proof.
  induction n as [|n IH]; intros s p t t' h h' H F; cbn [play].
  - split; auto. exists p. now apply grows_refl.
  - destruct (c s) as [q|]; [|split; auto; exists p; now apply grows_refl].
    rewrite (F2_length _ _ _ F).
    destruct (forallb (fun i => Nat.ltb i (length t')) (request_handles q)) eqn:E;
      [|split; auto; exists p; now apply grows_refl].
    assert (A : forall i, In i (request_handles q) -> In (nth i t 0, nth i t' 0) p).
    { intros i Hi. rewrite forallb_forall in E. apply E in Hi. apply Nat.ltb_lt in Hi.
      apply table_rel; auto. now rewrite (F2_length _ _ _ F). }
    pose proof (ask_rel X L NA p _ _ q A p h h' (incl_refl _) H) as Q.
    destruct (ask X L (rename (fun i => nth i t 0) q) h) as [[r k]| | |],
             (ask X L (rename (fun i => nth i t' 0) q) h') as [[r' k']| | |]; cbn in Q; try tauto;
      try (split; auto; exists p; now apply grows_refl).
    destruct Q as (p' & G & Ef & Eh).
    assert (F' : Forall2 (linked p') (t ++ snd r) (t' ++ snd r')).
    { apply Forall2_app; auto. eapply F2_linked_incl; [apply (gr_incl _ _ _ _ _ _ G) | exact F]. }
    rewrite Ef, (places_rel p' _ _ _ _ (proj1 (gr_rel _ _ _ _ _ _ G)) F' Eh).
    destruct (IH (s ++ [Ok (fst r', map (fun x => place x (t' ++ snd r')) (snd r'))]) p' _ _ _ _ (gr_rel _ _ _ _ _ _ G) F') as [B (p2 & G2)].
    split; auto. exists p2. eapply grows_trans; eauto.
Qed.

(** ** Worlds *)

Definition hidden_pair (h h' : heap) (x : nat * nat) : links :=
  match nth_error h (fst x), nth_error h' (snd x) with
  | Some (CMap m), Some (CMap m') => [(m_vals m, m_vals m')]
  | _, _ => []
  end.
Definition with_hidden (p : links) (h h' : heap) : links := p ++ flat_map (hidden_pair h h') p.

Lemma hidden_in p h h' a b : In (a, b) (flat_map (hidden_pair h h') p) <->
  exists m n mo mo', In (m, n) p /\ nth_error h m = Some (CMap mo) /\ nth_error h' n = Some (CMap mo')
    /\ a = m_vals mo /\ b = m_vals mo'.
Proof.
  rewrite in_flat_map. split.
  - intros ([m n] & I & K). unfold hidden_pair in K. cbn in K.
    destruct (nth_error h m) as [[| |mo|]|] eqn:E; try contradiction.
    destruct (nth_error h' n) as [[| |mo'|]|] eqn:E'; try contradiction.
    destruct K as [K|[]]. inversion K; subst. exists m, n, mo, mo'. auto.
  - intros (m & n & mo & mo' & I & E & E' & -> & ->). exists (m, n). split; auto.
    unfold hidden_pair. cbn. rewrite E, E'. cbn. auto.
Qed.

Section Worlds.
  Context (p : links) (h h' : heap) (Iv : Inv h) (Iv' : Inv h').
  Context (AL : alike p (view h) (view h')).
  Let im := view_impl h Iv.
  Let im' := view_impl h' Iv'.

  Lemma obj_not_owned a b : In (a, b) p -> ~ owned h a /\ ~ owned h' b.
  Proof.
    intros K. destruct (proj2 AL _ _ K) as [d d' A B _|l l' A B _|i j A B _|s A B].
    - apply (im_map _ _ im) in A as (mo & E & _). apply (im_map _ _ im') in B as (mo' & E' & _).
      split; intros (m & x & Hm & Ex).
      + destruct (inv_map _ Iv _ _ Hm) as [dd (_ & Z & _)]. congruence.
      + destruct (inv_map _ Iv' _ _ Hm) as [dd (_ & Z & _)]. congruence.
    - apply (im_arr _ _ im) in A as [_ A]. apply (im_arr _ _ im') in B as [_ B]. auto.
    - apply (im_val _ _ im) in A. apply (im_val _ _ im') in B.
      split; intros (m & x & Hm & Ex).
      + destruct (inv_map _ Iv _ _ Hm) as [dd (_ & Z & _)]. congruence.
      + destruct (inv_map _ Iv' _ _ Hm) as [dd (_ & Z & _)]. congruence.
    - apply (im_var _ _ im) in A. apply (im_var _ _ im') in B.
      split; intros (m & x & Hm & Ex).
      + destruct (inv_map _ Iv _ _ Hm) as [dd (_ & Z & _)]. congruence.
      + destruct (inv_map _ Iv' _ _ Hm) as [dd (_ & Z & _)]. congruence.
  Qed.

  Lemma hidden_one_to_one : one_to_one (with_hidden p h h').
  Proof.
    intros a b a' b' H1 H2. unfold with_hidden in *.
    apply in_app_or in H1 as [H1|H1]; apply in_app_or in H2 as [H2|H2].
    - apply (proj1 AL _ _ _ _ H1 H2).
    - apply hidden_in in H2 as (m & n & mo & mo' & K & E & E' & -> & ->).
      destruct (obj_not_owned _ _ H1) as [N N']. split; intros ->; exfalso; [apply N | apply N']; eexists; eauto.
    - apply hidden_in in H1 as (m & n & mo & mo' & K & E & E' & -> & ->).
      destruct (obj_not_owned _ _ H2) as [N N']. split; intros <-; exfalso; [apply N | apply N']; eexists; eauto.
    - apply hidden_in in H1 as (m & n & mo & mo' & K & E & E' & -> & ->).
      apply hidden_in in H2 as (m2 & n2 & mo2 & mo2' & K2 & E2 & E2' & -> & ->).
      pose proof (proj1 AL _ _ _ _ K K2) as Q. split; intros V.
      + assert (m = m2) by (eapply (inv_own _ Iv); eauto). assert (n = n2) by (now apply Q). subst. congruence.
      + assert (n = n2) by (eapply (inv_own _ Iv'); eauto). assert (m = m2) by (now apply Q). subst. congruence.
  Qed.

  Lemma F2_dict_get d d' k : Forall2 (fun x y => fst x = fst y /\ same_handle p (snd x) (snd y)) d d' ->
    entry_rel p (dict_get d k) (dict_get d' k).
  Proof.
    induction 1 as [|[k1 o] [k2 o'] d d' [A B] _ IH]; cbn in *; auto. subst. destruct (str_eqb k2 k); auto.
  Qed.
  Lemma F2_dict_keys d d' : Forall2 (fun x y => fst x = fst y /\ same_handle p (snd x) (snd y)) d d' -> dict_keys d = dict_keys d'.
  Proof. unfold dict_keys. induction 1 as [|x y d d' [A B] _ IH]; cbn; congruence. Qed.
  Lemma F2_dict_values d d' : Forall2 (fun x y => fst x = fst y /\ same_handle p (snd x) (snd y)) d d' ->
    Forall2 (same_handle p) (dict_values d) (dict_values d').
  Proof. unfold dict_values. induction 1 as [|x y d d' [A B] _ IH]; cbn; constructor; auto. Qed.

  Lemma alike_hrel : hrel (with_hidden p h h') h h'.
  Proof.
    split; [apply hidden_one_to_one|]. assert (J : incl p (with_hidden p h h')) by (unfold with_hidden; intros x; rewrite in_app_iff; auto).
    intros a b H. unfold with_hidden in H. apply in_app_or in H as [H|H].
    - destruct (proj2 AL _ _ H) as [d d' A B R|l l' A B R|i j A B R|s A B].
      + apply (im_map _ _ im) in A as (mo & E & Ho). apply (im_map _ _ im') in B as (mo' & E' & Ho').
        exists (CMap mo), (CMap mo'). repeat split; auto.
        * rewrite (proj1 Ho), (proj1 Ho'). now apply F2_dict_keys.
        * unfold with_hidden. apply in_or_app. right. apply hidden_in. exists a, b, mo, mo'. auto.
        * intros k. destruct Ho as (_ & _ & _ & T), Ho' as (_ & _ & _ & T'). rewrite T, T'.
          eapply entry_rel_incl; [exact J|]. now apply F2_dict_get.
      + apply (im_arr _ _ im) in A as [A _]. apply (im_arr _ _ im') in B as [B _].
        exists (CArr l), (CArr l'). repeat split; auto. cbn. eapply handles_incl; eauto.
      + apply (im_val _ _ im) in A. apply (im_val _ _ im') in B.
        exists (CVal i), (CVal j). repeat split; auto. cbn. eapply same_held_incl; eauto.
      + apply (im_var _ _ im) in A. apply (im_var _ _ im') in B.
        exists (CPtr s), (CPtr s). repeat split; auto.
    - apply hidden_in in H as (m & n & mo & mo' & K & E & E' & -> & ->).
      destruct (proj2 AL _ _ K) as [d d' A B R|l l' A B R|i j A B R|s A B].
      + apply (im_map _ _ im) in A as (x & Ex & Ho). apply (im_map _ _ im') in B as (x' & Ex' & Ho').
        rewrite E in Ex. inversion Ex; subst x. rewrite E' in Ex'. inversion Ex'; subst x'.
        exists (CArr (dict_values d)), (CArr (dict_values d')). repeat split; [apply Ho | apply Ho' |].
        cbn. eapply handles_incl; [exact J|]. now apply F2_dict_values.
      + apply (im_arr _ _ im) in A as [A _]. congruence.
      + apply (im_val _ _ im) in A. congruence.
      + apply (im_var _ _ im) in A. congruence.
  Qed.
End Worlds.

Lemma play_alike X L h h' p t t' n c : prints_no_address X -> reachable X h -> reachable X h' ->
  alike p (view h) (view h') -> Forall2 (linked p) t t' ->
  fst (play X L n c [] t h) = fst (play X L n c [] t' h').
Proof.
  intros NA R R' A F. pose proof (alike_hrel p h h' (reachable_Inv _ _ R) (reachable_Inv _ _ R') A) as H.
  apply (play_rel X L NA n c [] _ t t' h h' H). eapply F2_linked_incl; [|exact F].
  unfold with_hidden. intros x Hx. apply in_or_app; auto.
Qed.

Lemma play_start X L h h' n c : prints_no_address X -> reachable X h -> reachable X h' ->
  fst (play X L n c [] [] h) = fst (play X L n c [] [] h').
Proof.
  intros NA R R'. apply (play_alike X L h h' [] [] [] n c NA R R'); [|constructor].
  split; intros a b; [intros ? ? []|intros []].
Qed.

(** ** Separate programs *)

Definition diag (S : list nat) : links := map (fun a => (a, a)) S.
Lemma in_diag S a b : In (a, b) (diag S) <-> a = b /\ In a S.
Proof.
  unfold diag. rewrite in_map_iff. split.
  - intros (x & E & I). inversion E; subst. auto.
  - intros [<- I]. eauto.
Qed.
Lemma self_handle S o : (forall b, In b (oh o) -> In b S) -> same_handle (diag S) o o.
Proof. destruct o; cbn; auto. intros H. apply in_diag. auto. Qed.
Lemma self_alike w S : self_contained w S -> alike (diag S) w w.
Proof.
  intros H. split.
  - intros a b a' b' A B. apply in_diag in A as [-> _]. apply in_diag in B as [-> _]. tauto.
  - intros a b A. apply in_diag in A as [<- A]. destruct (H _ A) as [(d & E & K)|[(l & E & K)|[(i & E & K)|(s & E)]]].
    + eapply so_map; eauto. clear E. induction d as [|[k o] d IH]; constructor.
      * split; auto. cbn. apply self_handle. destruct o; cbn; [|tauto]. intros b [<-|[]]. apply (K k). cbn; auto.
      * apply IH. intros k' b I. apply (K k'). cbn; auto.
    + eapply so_arr; eauto. clear E. induction l as [|o l IH]; constructor.
      * apply self_handle. destruct o; cbn; [|tauto]. intros b [<-|[]]. apply K. cbn; auto.
      * apply IH. intros b I. apply K. cbn; auto.
    + eapply so_val; eauto.
      assert (Q : forall b, In b (iface_handles i) -> In (b, b) (diag S)) by (intros b Ib; apply in_diag; auto).
      destruct i as [| |? [?|]|?|[?|]|?|[?|]|?|[?|]| | | | | | | | | | |]; cbn in Q;
        first [apply sh_plain; reflexivity | apply sh_ptr; auto | apply sh_map; auto | apply sh_pmap; auto | apply sh_arr; auto
              | apply sh_parr; auto | apply sh_val; auto | apply sh_pval; auto].
    + eapply so_var; eauto.
Qed.

Lemma table_diag S t : incl t S -> Forall2 (linked (diag S)) t t.
Proof.
  induction t as [|a t IH]; intros I; constructor.
  - apply in_diag. split; auto. apply I. cbn; auto.
  - apply IH. intros x Hx. apply I. cbn; auto.
Qed.

Lemma play_separate X L h S1 S2 t1 t2 n c m d : prints_no_address X -> reachable X h ->
  self_contained (view h) S1 -> self_contained (view h) S2 -> (forall a, In a S1 -> In a S2 -> False) ->
  incl t1 S1 -> incl t2 S2 ->
  fst (play X L m d [] t2 (snd (play X L n c [] t1 h))) = fst (play X L m d [] t2 h).
Proof.
  intros NA R C1 C2 Dj T1 T2. pose proof (reachable_Inv _ _ R) as Iv.
  pose proof (self_alike _ _ C1) as A1. pose proof (self_alike _ _ C2) as A2.
  pose proof (alike_hrel _ _ _ Iv Iv A1) as H1. pose proof (alike_hrel _ _ _ Iv Iv A2) as H2.
  assert (F1 : Forall2 (linked (with_hidden (diag S1) h h)) t1 t1).
  { eapply F2_linked_incl; [|apply table_diag; eauto]. unfold with_hidden. intros x Hx. apply in_or_app; auto. }
  assert (F2 : Forall2 (linked (with_hidden (diag S2) h h)) t2 t2).
  { eapply F2_linked_incl; [|apply table_diag; eauto]. unfold with_hidden. intros x Hx. apply in_or_app; auto. }
  destruct (play_rel X L NA n c [] _ t1 t1 h h H1 F1) as [_ (q & G)].
  assert (E : forall a b, In (a, b) (with_hidden (diag S2) h h) -> a = b /\ forall b', ~ In (a, b') (with_hidden (diag S1) h h)).
  { intros a b I. unfold with_hidden in I. apply in_app_or in I as [I|I].
    - pose proof I as I'. apply in_diag in I as [<- I]. split; auto. intros b' K. apply in_app_or in K as [K|K].
      + apply in_diag in K as [_ K]. eauto.
      + apply hidden_in in K as (x & y & mo & mo' & _ & E & _ & -> & ->).
        apply (proj1 (obj_not_owned (diag S2) h h Iv Iv A2 _ _ I')). exists x, mo; auto.
    - apply hidden_in in I as (x & y & mo & mo' & I & E & E' & -> & ->). apply in_diag in I as [<- I].
      split; [congruence|]. intros b' K. apply in_app_or in K as [K|K].
      + apply (proj1 (obj_not_owned (diag S1) h h Iv Iv A1 _ _ K)). exists x, mo; auto.
      + apply hidden_in in K as (u & v & mu & mv & K & Eu & _ & Q & _). apply in_diag in K as [_ K].
        assert (x = u) by (exact (inv_own _ Iv _ _ _ _ E Eu Q)). subst u. eauto. }
  assert (H3 : hrel (with_hidden (diag S2) h h) (snd (play X L n c [] t1 h)) h).
  { split; [apply H2|]. intros a b I. destruct (proj2 H2 _ _ I) as (x & x' & Hx & Hx' & Rx).
    exists x, x'. split; auto. destruct (E _ _ I) as [<- N].
    rewrite (gr_frame _ _ _ _ _ _ G); auto. eapply nth_error_lt; eauto. }
  apply (play_rel X L NA m d [] _ t2 t2 _ _ H3 F2).
Qed.
