(** * The getters of times *)
From Coq Require Import Ascii String List NArith ZArith Bool Lia.
From Verif Require Import GoStr StrLemmas GoNum GoFloat Heap Common ValueModel ArrayModel MapModel TimeModel
  SpecDict DictLemmas SpecWorld SpecString SpecTime Inv World Reach MapFacts GetterFacts GetterLift GetterMore ObjFacts ShareFacts IndexFacts.
Import ListNotations.

Section S.
  Context (X : ext).

  Lemma arg_question h i : Inv h -> ok_iface h i -> time_arg_of h i = Ok (question (view h) i).
  Proof.
    intros I O. unfold time_arg_of, question.
    destruct (scalar_of (view h) i) as [s|] eqn:S.
    - destruct (deref_scalar h i s O S) as [D C]. rewrite <- S.
      destruct C as [->|(p & -> & _)]; rewrite D, S; reflexivity.
    - destruct i as [|s|t [p|]|m|[m|]|a|[a|]|u|[u|]|l|l|[l|]|[l|]|s|[s|]|tm|fn|[fn|]|[tm|]|nm [d|]]; try reflexivity; try discriminate.
      exfalso. cbn in O. destruct O as (s & Hs & Ts).
      assert (V : w_var (view h) p = Some s) by (apply (im_var _ _ (view_impl _ I)); exact Hs).
      revert S. remember (view h) as w. cbn. rewrite V. discriminate.
  Qed.

  Lemma value_time_spec read h v i : reachable X h -> nth_error h v = Some (CVal i) ->
    value_time read X h v = time_answer read X (view h) (Some i).
  Proof.
    intros R H. pose proof (reachable_Inv _ _ R) as I.
    unfold value_time, time_answer. rewrite (proj2 (rd_val_iff _ _ _) H). cbn [rbind]. rewrite unset_spec.
    destruct (unset X i); [reflexivity|].
    assert (W : w_val (view h) v = Some i) by (apply (im_val _ _ (view_impl _ I)); exact H).
    now rewrite (arg_question h i I (inv_val h I _ _ H)).
  Qed.

  Lemma value_timevalue_spec L h v i : reachable X h -> w_val (view h) v = Some i ->
    value_GetTimeValue L h v
    = rbind (t_get L (question (view h) i))
        (fun r => Ok (match r with GErr e => GErr e | GVal None => GVal (t_zero L) | GVal (Some t) => GVal t end)).
  Proof.
    intros R W. pose proof (reachable_Inv _ _ R) as I.
    assert (H : nth_error h v = Some (CVal i)) by (apply (im_val _ _ (view_impl _ I)); exact W).
    unfold value_GetTimeValue. rewrite (proj2 (rd_val_iff _ _ _) H). cbn [rbind].
    now rewrite (arg_question h i I (inv_val h I _ _ H)).
  Qed.

  Lemma map_time_spec read h m k : reachable X h -> has (w_map (view h)) m ->
    map_via (GVal None) (value_time read X h) h m k = time_answer read X (view h) (object_at (view h) m k).
  Proof.
    intros R Hm. pose proof (reachable_Inv _ _ R) as I. destruct (absent (view h) m k) eqn:A.
    - rewrite (map_via_absent h I _ _ m k Hm A). unfold absent in A.
      destruct (object_at (view h) m k) as [i|]; [|reflexivity]. unfold time_answer, unset. now rewrite A.
    - unfold absent in A. destruct (object_at (view h) m k) as [i|] eqn:O; [|discriminate].
      destruct (map_via_present h I m k i Hm O A) as (v & Hv & _ & _ & Vi). rewrite Vi.
      now apply value_time_spec.
  Qed.

  Lemma time_get L h m k : reachable X h -> has (w_map (view h)) m ->
    map_GetTime L X h m k = time_answer (t_get L) X (view h) (object_at (view h) m k)
    /\ forall n, map_GetTimeWithDecimalPlaces L n X h m k = time_answer (t_places L n) X (view h) (object_at (view h) m k).
  Proof. intros R Hm. split; [|intros n]; apply map_time_spec; auto. Qed.

  Lemma time_value L h v i : reachable X h -> w_val (view h) v = Some i ->
    value_GetTime L X h v = time_answer (t_get L) X (view h) (Some i)
    /\ forall n, value_GetTimeWithDecimalPlaces L n X h v = time_answer (t_places L n) X (view h) (Some i).
  Proof.
    intros R W. pose proof (reachable_Inv _ _ R) as I.
    assert (H : nth_error h v = Some (CVal i)) by (apply (im_val _ _ (view_impl _ I)); exact W).
    split; [|intros n]; apply value_time_spec; auto.
  Qed.

  Lemma time_set L h m k t cs :
    reachable X h -> has (w_map (view h)) m ->
    exists h1, run_call (AMapSet m k (ITime t)) h = Ok (ODone, h1) /\ reachable X h1
      /\ (ok_calls cs (view h1) -> Forall (fun c => ~ touches m k (w_next (view h)) c) cs ->
          exists h2, run_calls cs h1 = Ok (fst (spec_calls cs (view h1)), h2) /\ reachable X h2
            /\ map_GetTime L X h2 m k
               = match t with
               | Some p => if x_known X TPTime then t_get L (TimeArg TPTime None (Some p)) else Ok (GVal None)
               | None => Ok (GVal None)
               end).
  Proof.
    intros R Hm. destruct (set_slot X h m k (ITime t) R Hm Logic.I) as (h1 & E1 & R1 & Hm1 & D1 & V1).
    exists h1. split; auto. split; auto. intros K T.
    destruct (history_out X h1 cs R1 K) as (h2 & E2). exists h2. split; auto.
    assert (R2 : reachable X h2) by (eapply reachable_run_calls; eauto). split; auto.
    destruct (slot_history X cs h1 m k _ (ITime t) _ h2 R1 K Hm1 D1 V1 T E2) as [Hm2 O2].
    rewrite (proj1 (time_get L h2 m k R2 Hm2)), O2. unfold time_answer, unset. destruct t as [t|]; [|reflexivity].
    cbn [nil_object known orb]. destruct (x_known X TPTime); reflexivity.
  Qed.
End S.
