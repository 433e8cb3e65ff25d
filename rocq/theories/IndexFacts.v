(** * Strings and maps by index, and comparison with strings *)
From Coq Require Import Ascii String List NArith ZArith Bool Lia.
From Verif Require Import GoStr StrLemmas GoNum GoFloat Heap Common ValueModel ArrayModel MapModel
  SpecDict DictLemmas SpecWorld SpecString Inv World Reach MapFacts GetterFacts GetterLift.
Import ListNotations.

Section S.
  Context (X : ext).

  Lemma unset_spec i : iface_IsNil X i = unset X i.
  Proof.
    unfold iface_IsNil, unset, common_recognised, common_GetType.
    destruct i as [|s|t [p|]|m|[m|]|a|[a|]|v|[v|]|l|l|[l|]|[l|]|s|[s|]|tm|fn|[fn|]|[tm|]|nm [d|]]; cbn;
      rewrite ?orb_false_r, ?orb_true_r; try reflexivity.
    all: try (destruct s as [| |[]|[]]; reflexivity).
    all: try (destruct t as [| |[]|[]]; reflexivity).
    all: try (destruct (x_known X _), (x_is_array X _); reflexivity).
  Qed.

  Lemma string_spec h v i : reachable X h -> w_val (view h) v = Some i ->
    value_GetStringValue X h v
    = match text_kind_of X (view h) i with
      | Text t => Ok (GVal t)
      | Unset => Ok (GErr [ENilValue])
      | Wrong => Panic
      end.
  Proof.
    intros R W. pose proof (reachable_Inv _ _ R) as I. apply (im_val _ _ (view_impl _ I)) in W.
    pose proof (inv_val h I _ _ W) as O. unfold text_kind_of. rewrite <- unset_spec.
    destruct (scalar_of (view h) i) as [s|] eqn:S.
    - destruct (deref_scalar h i s O S) as [_ D]. rewrite (denotes_IsNil X _ _ _ D).
      destruct s as [t| | |]; [now apply (get_stringvalue X h v i _ W D t)| | |];
        unfold value_GetStringValue, value_GetString; rewrite (proj2 (rd_val_iff _ _ _) W); cbn [rbind];
        rewrite (denotes_IsNil X _ _ _ D); destruct D as [->|(p & -> & E)]; reflexivity.
    - unfold value_GetStringValue, value_GetString. rewrite (proj2 (rd_val_iff _ _ _) W). cbn [rbind].
      destruct (iface_IsNil X i) eqn:N; [reflexivity|].
      destruct i as [|s|t [p|]|m|[m|]|a|[a|]|u|[u|]|l|l|[l|]|[l|]|s|[s|]|tm|fn|[fn|]|[tm|]|nm [d|]]; try reflexivity; try discriminate.
      cbn in O. destruct O as (s & E & T). exfalso. cbn [scalar_of] in S.
      assert (Q : w_var (view h) p = Some s) by (apply (im_var _ _ (view_impl _ I)); exact E). rewrite Q in S. discriminate.
  Qed.

  Lemma map_spec h v i : reachable X h -> w_val (view h) v = Some i ->
    value_GetMap X h v = Ok (match map_kind_of X i with AMap m => GVal (Some m) | UnsetMap => GVal None | WrongMap => GErr [EType] end).
  Proof.
    intros R W. pose proof (reachable_Inv _ _ R) as I. apply (im_val _ _ (view_impl _ I)) in W.
    unfold value_GetMap. rewrite (proj2 (rd_val_iff _ _ _) W). cbn [rbind]. unfold map_kind_of. rewrite unset_spec.
    destruct (unset X i) eqn:U; [reflexivity|].
    destruct i as [|s|t [p|]|m|[m|]|a|[a|]|u|[u|]|l|l|[l|]|[l|]|s|[s|]|tm|fn|[fn|]|[tm|]|nm [d|]]; try reflexivity; discriminate.
  Qed.

  Lemma index_spec {A} h a l idx (get : nat -> res (gres A)) : reachable X h -> w_arr (view h) a = Some l ->
    arr_elem h a idx get
    = if (idx <? 0)%Z then Ok (GErr [EIndexNeg])
      else match nth_error l (Z.to_nat idx) with
           | None => Ok (GErr [EIndexRange])
           | Some None => Panic
           | Some (Some v) => r <-r get v ;; Ok (match r with GErr _ => GErr [EElem] | GVal x => GVal x end)
           end.
  Proof.
    intros R W. pose proof (reachable_Inv _ _ R) as I. apply (im_arr _ _ (view_impl _ I)) in W as [W _]. apply rd_arr_iff in W.
    unfold arr_elem. rewrite W. cbn [rbind]. destruct (Z.ltb_spec idx 0) as [L|L]; [reflexivity|].
    destruct (Z.ltb_spec (Z.of_nat (length l) - 1) idx) as [G|G].
    - assert (nth_error l (Z.to_nat idx) = None) as -> by (apply nth_error_None; lia). reflexivity.
    - destruct (nth_error l (Z.to_nat idx)) as [[v|]|] eqn:N; [reflexivity|reflexivity|].
      apply nth_error_None in N. lia.
  Qed.

  (** An element of an array is a nil pointer or a value that exists. *)
  Lemma elem_value h a l n v : reachable X h -> w_arr (view h) a = Some l -> nth_error l n = Some (Some v) ->
    exists i, w_val (view h) v = Some i.
  Proof.
    intros R W N. pose proof (reachable_Inv _ _ R) as I. pose proof (view_impl _ I) as P.
    apply (im_arr _ _ P) in W as [W _]. apply nth_error_In in N.
    pose proof (inv_arr h I _ _ W) as Q. rewrite Forall_forall in Q. specialize (Q _ N). cbn in Q. destruct Q as [i Q].
    exists i. now apply (im_val _ _ P).
  Qed.

  Definition element (w : world) (l : list (option nat)) (idx : Z) (i : iface) : Prop :=
    (0 <= idx)%Z /\ exists v, nth_error l (Z.to_nat idx) = Some (Some v) /\ w_val w v = Some i.

  Lemma index_string h a l idx i : reachable X h -> w_arr (view h) a = Some l ->
    (0 <= idx)%Z -> (exists v, nth_error l (Z.to_nat idx) = Some (Some v) /\ w_val (view h) v = Some i) ->
    arr_GetStringValue X h a idx
    = match text_kind_of X (view h) i with Text t => Ok (GVal t) | Unset => Ok (GErr [EElem]) | Wrong => Panic end.
  Proof.
    intros R W L (v & N & V). unfold arr_GetStringValue. rewrite (index_spec h a l idx _ R W).
    destruct (Z.ltb_spec idx 0); [lia|]. rewrite N, (string_spec h v i R V).
    destruct (text_kind_of X (view h) i); reflexivity.
  Qed.
  Lemma index_map h a l idx i : reachable X h -> w_arr (view h) a = Some l ->
    (0 <= idx)%Z -> (exists v, nth_error l (Z.to_nat idx) = Some (Some v) /\ w_val (view h) v = Some i) ->
    arr_GetMap X h a idx
    = Ok (match map_kind_of X i with AMap m => GVal m | UnsetMap => GErr [ENilValue] | WrongMap => GErr [EElem] end).
  Proof.
    intros R W L (v & N & V). unfold arr_GetMap. rewrite (index_spec h a l idx _ R W).
    destruct (Z.ltb_spec idx 0); [lia|]. rewrite N, (map_spec h v i R V).
    destruct (map_kind_of X i); reflexivity.
  Qed.
  Lemma index_outside h a l idx : reachable X h -> w_arr (view h) a = Some l ->
    (idx < 0 \/ Z.of_nat (length l) <= idx)%Z ->
    arr_GetStringValue X h a idx = Ok (GErr [if (idx <? 0)%Z then EIndexNeg else EIndexRange])
    /\ arr_GetMap X h a idx = Ok (GErr [if (idx <? 0)%Z then EIndexNeg else EIndexRange]).
  Proof.
    intros R W L. unfold arr_GetStringValue, arr_GetMap. rewrite !(index_spec h a l idx _ R W).
    destruct (Z.ltb_spec idx 0); [split; reflexivity|].
    assert (nth_error l (Z.to_nat idx) = None) as -> by (apply nth_error_None; lia). split; reflexivity.
  Qed.
  Lemma index_nil h a l idx : reachable X h -> w_arr (view h) a = Some l ->
    (0 <= idx)%Z -> nth_error l (Z.to_nat idx) = Some None ->
    arr_GetStringValue X h a idx = Panic /\ arr_GetMap X h a idx = Panic.
  Proof.
    intros R W L N. unfold arr_GetStringValue, arr_GetMap. rewrite !(index_spec h a l idx _ R W).
    destruct (Z.ltb_spec idx 0); [lia|]. rewrite N. split; reflexivity.
  Qed.

  (** ** Comparison *)
  Lemma equal_spec h v i s : reachable X h -> w_val (view h) v = Some i ->
    value_IsEqualToString X h v s
    = match text_kind_of X (view h) i, s with
      | Unset, None => Ok true
      | Unset, Some _ => Ok false
      | _, None => Ok false
      | Text t, Some u => Ok (str_eqb t u)
      | Wrong, Some _ => Panic
      end.
  Proof.
    intros R W. unfold value_IsEqualToString. rewrite (string_spec h v i R W).
    pose proof (reachable_Inv _ _ R) as I. apply (im_val _ _ (view_impl _ I)) in W.
    rewrite (proj2 (rd_val_iff _ _ _) W). cbn [rbind]. rewrite unset_spec. unfold text_kind_of.
    destruct (unset X i), s; try reflexivity; destruct (scalar_of (view h) i) as [[]|]; reflexivity.
  Qed.
  Lemma empty_spec h v i : reachable X h -> w_val (view h) v = Some i ->
    value_IsEmptyString X h v = Ok (match text_kind_of X (view h) i with Text [] => true | _ => false end).
  Proof.
    intros R W. unfold value_IsEmptyString. rewrite (string_spec h v i R W).
    pose proof (reachable_Inv _ _ R) as I. apply (im_val _ _ (view_impl _ I)) in W.
    pose proof (inv_val h I _ _ W) as O.
    rewrite (proj2 (rd_val_iff _ _ _) W). cbn [rbind]. rewrite unset_spec. unfold text_kind_of.
    destruct (unset X i) eqn:U; [reflexivity|].
    destruct (scalar_of (view h) i) as [s|] eqn:S.
    - destruct (deref_scalar h i s O S) as [_ D]. destruct (denotes_type X _ _ _ D) as [->| ->]; destruct s as [[|c t]|b|[]|[]]; reflexivity.
    - assert (common_IsString (common_GetType X i) = false) as ->; [|reflexivity].
      unfold common_GetType. destruct i as [|s|t [p|]|m|[m|]|a|[a|]|u|[u|]|l|l|[l|]|[l|]|s|[s|]|tm|fn|[fn|]|[tm|]|nm [d|]]; try reflexivity; try discriminate.
      cbn in O. destruct O as (s & E & T). exfalso. cbn [scalar_of] in S.
      assert (Q : w_var (view h) p = Some s) by (apply (im_var _ _ (view_impl _ I)); exact E). rewrite Q in S. discriminate.
  Qed.
End S.
