(** * Concrete states for the theorems about the texts of the getters' errors *)
From Coq Require Import Ascii String List NArith ZArith Bool Lia.
From Verif Require Import GoStr GoNum GoFloat Heap Common ValueModel ArrayModel MapModel RunesModel SpecDict SpecNum SpecWorld Inv World Reach
  MapFacts ExampleState ExampleAlike SaysModel SpecSays SaysAll SaysLists.
Import ListNotations.

(** Quotes around the text (strconv.Quote of a text without quotes, backslashes and
    control characters). *)
Definition quoted (s : str) : str := lit """" ++ s ++ lit """".

(** A map 1 with a large number, a negative number, a text that is no number, a pointer to
    a text, nil, and a Value in a Value; an array 10 with a text, a nil *Value, a number and
    a map. *)
Definition asked_state : heap := heap_of
  [ANewMap; AMapSet 1 (lit "u") (IScal (SInt KUInt64 18446744073709551615)); AMapSet 1 (lit "n") (IScal (SInt KInt (-300)));
   AMapSet 1 (lit "t") (IScal (SStr (lit "12x"))); AMapSet 1 (lit "b") (IScal (SBool true));
   ANewVar (SStr (lit "yes")); AMapSet 1 (lit "p") (IPtr TyStr (Some 6)); AMapSet 1 (lit "z") INil; AMapSet 1 (lit "v") (IVal 4);
   ANewArray; AArrAppend 10 (IScal (SStr (lit "7"))); AArrAppendValue 10 None; AArrAppend 10 (IScal (SInt KUInt16 300));
   AArrAppend 10 (IMap 1); AArrAppend 10 INil; AMapSet 1 (lit "a") (IPArr (Some 10))].
Lemma asked_reachable X : reachable X asked_state.
Proof. apply heap_of_reachable; [vm_compute; reflexivity|]. vm_compute. eauto. Qed.
Lemma asked_Inv : Inv asked_state.
Proof. exact (reachable_Inv _ _ (asked_reachable std_ext)). Qed.

Lemma asked_map : has (w_map (view asked_state)) 1.
Proof. vm_compute. eauto. Qed.

Lemma asked_typed v i : nth_error asked_state v = Some (CVal i) -> typed_ints std_ext asked_state i.
Proof.
  intros E k z S. apply nth_error_In in E. vm_compute in E.
  repeat (destruct E as [E|E]; [try discriminate E; injection E as <-;
    (destruct S as [S|(p & S & G)]; [|discriminate S]); try discriminate S; injection S as <- <-;
    ((left; split; [unfold is_signed; auto; fail|vm_compute; split; discriminate])
     || (right; split; [unfold is_signed; intuition discriminate|vm_compute; split; discriminate]))|]).
  contradiction.
Qed.
Lemma asked_typed_map k i : SpecWorld.object_at (view asked_state) 1 k = Some i -> typed_ints std_ext asked_state i.
Proof.
  intros E. destruct (GetterFacts.object_at_Some asked_state asked_Inv 1 k i asked_map E) as (v & _ & V & _).
  eapply asked_typed; eauto.
Qed.

Lemma asked_says g k ms : map_says quoted std_ext asked_state g 1 k = Ok ms -> map_texts quoted std_ext asked_state (view asked_state) g 1 k ms.
Proof. apply (map_says_iff quoted std_ext asked_state asked_Inv); [exact asked_map|exact (asked_typed_map k)]. Qed.
