(** * Programs that change the list returned by Values(): C59 *)
From Coq Require Import Ascii String List NArith ZArith Bool Lia.
From Verif Require Import GoStr GoNum GoFloat Heap Common ValueModel ArrayModel MapModel JsonModel GetterModel
  ValuesModel SpecDict SpecWorld SpecValues Inv World Reach MapFacts ValuesFacts ExampleState.
Import ListNotations.

(** Any program of API calls and calls on the lists returned by Values(): every call
    returns what [spec_steps] says (what an undisturbed program gets, except that Values()
    shows the changed list), and in the end every map and array answers every getter,
    lists its keys and writes its text as after the program [calls_of ss], in which the
    calls on the lists are left out. *)
Theorem c59_program : forall X h ss,
  reachable X h -> ok_steps ss (view h) (lists_of (view h)) ->
  exists h1 h2, run_steps ss h = Ok (fst (fst (spec_steps ss (view h) (lists_of (view h)))), h1)
    /\ run_calls (calls_of ss) h = Ok (fst (spec_calls (calls_of ss) (view h)), h2) /\ reachable X h2
    /\ (forall m k g, has (w_map (view h2)) m -> run_getter g X h1 m k = run_getter g X h2 m k)
    /\ (forall m, has (w_map (view h2)) m -> map_GetKeys h1 m = map_GetKeys h2 m)
    /\ (forall m f b, has (w_map (view h2)) m -> map_ToJSONString f X h1 m b = map_ToJSONString f X h2 m b)
    /\ (forall a f b, has (w_arr (view h2)) a -> arr_ToJSONString f X h1 a b = arr_ToJSONString f X h2 a b).
Proof. exact values_steps. Qed.

(** That Values() stays aligned with GetKeys() is false for such programs: after
    appending to the list, every key set later has its value at another position. *)
Definition values_program : list step :=
  [Call ANewMap; Call (AMapSet 1 (lit "a") (IScal (SBool true))); Call (ANewValue INil);
   OnValues 1 (LAppendValue (Some 3)); Call (AMapSet 1 (lit "b") (IScal (SBool false)));
   OnValues 1 (LRemoveValueAtIndex 7); OnValues 1 (LSetValueAtIndex 0 None);
   Call (AMapGetValue 1 (lit "a")); Call (AMapGetKeys 1); Call (AMapValues 1);
   Call (AMapRemoveKey 1 (lit "a")); Call (AMapGetKeys 1); Call (AMapValues 1)]%nat.
Theorem c59_aligned_refuted : forall X, exists h ss h1,
  reachable X h /\ ok_steps ss (view h) (lists_of (view h))
  /\ run_steps ss h
     = Ok ([OHandle 1; ODone; OHandle 3; ODone; ODone; OFlag false true; OFlag true false;
            OValue (Some 2); OKeys [lit "a"; lit "b"]; OElems [None; Some 3; Some 4];
            OFlag true false; OKeys [lit "b"]; OElems [Some 3; Some 4]], h1)%nat.
Proof.
  intros X. exists [], values_program. eexists. split; [constructor|].
  split; [|vm_compute; reflexivity].
  cbn. unfold has, put; cbn. repeat split; eauto.
Qed.

Example c59_ex : (forall X, reachable X ex_state) /\ has (w_map (view ex_state)) 1%nat
  /\ ok_steps [OnValues 1 (LRemoveValueAtIndex 0); Call (AMapSet 1 (lit "z") INil); OnValues 1 (LAppendValue None)]%nat
       (view ex_state) (lists_of (view ex_state)).
Proof.
  split; [exact ex_reachable|]. split; [exact ex_map|].
  assert (M : has (w_map (view ex_state)) 1%nat) by exact ex_map.
  cbn [ok_steps]. split; [exact M|]. cbn [spec_step].
  destruct (valid_index (lists_of (view ex_state) 1%nat) 0); cbn [ok_steps ok_step ok_call]; (split; [split; [exact M|exact Logic.I]|]);
    (split; [split; [|exact Logic.I]; eexists; vm_compute; reflexivity|exact Logic.I]).
Qed.

Print Assumptions c59_program.
Print Assumptions c59_aligned_refuted.
