(** * Functions stored in maps *)
From Coq Require Import Ascii String List NArith ZArith Bool Lia.
From Verif Require Import GoStr StrLemmas GoNum GoFloat Heap Common ValueModel ArrayModel MapModel
  SpecDict DictLemmas SpecWorld SpecString Inv World Reach MapFacts GetterFacts GetterLift GetterMore ObjFacts ShareFacts IndexFacts.
Import ListNotations.

Section S.
  Context (X : ext).

  Lemma value_func h v i : nth_error h v = Some (CVal i) ->
    value_GetFunc X h v = Ok (match func_kind_of X i with AFunc f => GVal (Some f) | NoFunc => GVal None | WrongFunc => GErr [EType] end).
  Proof.
    intros H. unfold value_GetFunc. rewrite (proj2 (rd_val_iff _ _ _) H). cbn [rbind]. rewrite unset_spec.
    unfold func_kind_of. destruct (unset X i) eqn:U; [reflexivity|]. unfold common_GetType.
    destruct i as [|s|t [p|]|m|[m|]|a|[a|]|u|[u|]|l|l|[l|]|[l|]|s|[s|]|tm|fn|[fn|]|[tm|]|nm [d|]]; cbn [common_IsNil andb static_type]; try reflexivity;
      try discriminate.
  Qed.

  Lemma map_func h m k : reachable X h -> has (w_map (view h)) m ->
    map_GetFunc X h m k
    = Ok (match object_at (view h) m k with
          | None => GVal None
          | Some i => match func_kind_of X i with AFunc f => GVal (Some f) | NoFunc => GVal None | WrongFunc => GErr [EType] end
          end).
  Proof.
    intros R Hm. pose proof (reachable_Inv _ _ R) as I. destruct (absent (view h) m k) eqn:A.
    - unfold map_GetFunc. rewrite (map_via_absent h I _ _ m k Hm A). unfold absent in A.
      destruct (object_at (view h) m k) as [i|]; [|reflexivity]. unfold func_kind_of, unset. now rewrite A.
    - unfold absent in A. destruct (object_at (view h) m k) as [i|] eqn:O; [|discriminate].
      destruct (map_via_present h I m k i Hm O A) as (v & Hv & _ & _ & Vi). unfold map_GetFunc. rewrite Vi.
      now apply value_func.
  Qed.

  Lemma func_set h m k i o cs :
    reachable X h -> has (w_map (view h)) m ->
    (i = IPFunc o \/ exists f, i = IFunc f /\ o = Some f) ->
    exists h1, run_call (AMapSet m k i) h = Ok (ODone, h1) /\ reachable X h1
      /\ (ok_calls cs (view h1) -> Forall (fun c => ~ touches m k (w_next (view h)) c) cs ->
          exists h2, run_calls cs h1 = Ok (fst (spec_calls cs (view h1)), h2) /\ reachable X h2
            /\ map_GetFunc X h2 m k = Ok (GVal o)).
  Proof.
    intros R Hm Hi. assert (Oi : ok_object (view h) i). { destruct Hi as [->|(f & -> & _)]; exact Logic.I. }
    destruct (set_slot X h m k i R Hm Oi) as (h1 & E1 & R1 & Hm1 & D1 & V1).
    exists h1. split; auto. split; auto. intros K T.
    destruct (history_out X h1 cs R1 K) as (h2 & E2). exists h2. split; auto.
    assert (R2 : reachable X h2) by (eapply reachable_run_calls; eauto). split; auto.
    destruct (slot_history X cs h1 m k _ i _ h2 R1 K Hm1 D1 V1 T E2) as [Hm2 O2].
    rewrite (map_func h2 m k R2 Hm2), O2. destruct Hi as [->|(f & -> & ->)]; [destruct o|]; reflexivity.
  Qed.

  Lemma map_is_nil h m : reachable X h -> has (w_map (view h)) m ->
    map_IsNil X h m = Ok (negb (common_recognised X table_type)).
  Proof.
    intros R [d Hd]. pose proof (reachable_Inv _ _ R) as I. apply (im_map _ _ (view_impl _ I)) in Hd as (mo & Hm & _).
    unfold map_IsNil. now rewrite (proj2 (rd_map_iff _ _ _) Hm).
  Qed.
End S.
