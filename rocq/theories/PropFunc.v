(** * Functions stored in maps, and IsNil: C55 *)
From Coq Require Import Ascii String List NArith ZArith Bool Lia.
From Verif Require Import GoStr GoNum GoFloat Heap Common ValueModel ArrayModel MapModel
  SpecDict SpecWorld SpecString Inv World Reach MapFacts FuncFacts ExampleState.
Import ListNotations.

(** GetFunc(k): the function, nothing when nothing is stored, an error for any other
    object; it never panics. *)
Theorem c55_get : forall X h m k,
  reachable X h -> has (w_map (view h)) m ->
  map_GetFunc X h m k
  = Ok (match object_at (view h) m k with
        | None => GVal None
        | Some i => match func_kind_of X i with AFunc f => GVal (Some f) | NoFunc => GVal None | WrongFunc => GErr [EType] end
        end).
Proof. exact map_func. Qed.

(** What SetFunc stored is returned by GetFunc after any calls that do not write that
    slot; SetFunc of a nil pointer makes it return nothing. *)
Theorem c55_set_get : forall X h m k i o cs,
  reachable X h -> has (w_map (view h)) m ->
  (i = IPFunc o \/ exists f, i = IFunc f /\ o = Some f) ->
  exists h1, run_call (AMapSet m k i) h = Ok (ODone, h1) /\ reachable X h1
    /\ (ok_calls cs (view h1) -> Forall (fun c => ~ touches m k (w_next (view h)) c) cs ->
        exists h2, run_calls cs h1 = Ok (fst (spec_calls cs (view h1)), h2) /\ reachable X h2
          /\ map_GetFunc X h2 m k = Ok (GVal o)).
Proof. exact func_set. Qed.

(** IsNil() of a map says nothing about the map: it is the same for all maps in all
    states. *)
Theorem c55_is_nil : forall X h1 h2 m1 m2,
  reachable X h1 -> reachable X h2 -> has (w_map (view h1)) m1 -> has (w_map (view h2)) m2 ->
  map_IsNil X h1 m1 = map_IsNil X h2 m2 /\ exists b, map_IsNil X h1 m1 = Ok b.
Proof.
  intros X h1 h2 m1 m2 R1 R2 M1 M2. rewrite (map_is_nil X h1 m1 R1 M1), (map_is_nil X h2 m2 R2 M2). eauto.
Qed.

Definition func_calls : list api :=
  [ANewMap; AMapSet 1 (lit "f") (IPFunc (Some 7)); AMapSet 1 (lit "g") (IFunc 8); AMapSet 1 (lit "n") (IPFunc None);
   AMapSet 1 (lit "s") (IScal (SStr (lit "func")))]%nat.
Definition func_state : heap := match run_calls func_calls [] with Ok (_, h) => h | _ => [] end.
Example c55_ex : (forall X, reachable X func_state) /\ has (w_map (view func_state)) 1%nat
  /\ (forall X, map_GetFunc X func_state 1 (lit "f") = Ok (GVal (Some 7%nat)) /\ map_GetFunc X func_state 1 (lit "g") = Ok (GVal (Some 8%nat)))
  /\ map_GetFunc std_ext func_state 1 (lit "n") = Ok (GVal None) /\ map_GetFunc std_ext func_state 1 (lit "x") = Ok (GVal None)
  /\ map_GetFunc std_ext func_state 1 (lit "s") = Ok (GErr [EType])
  /\ ok_calls [AMapSet 1 (lit "s") INil; AMapRemoveKey 1 (lit "g")] (view func_state)
  /\ Forall (fun c => ~ touches 1 (lit "f") 2 c) [AMapSet 1 (lit "s") INil; AMapRemoveKey 1 (lit "g")].
Proof.
  split.
  { intros X. assert (E : exists os, run_calls func_calls [] = Ok (os, func_state)) by (eexists; vm_compute; reflexivity).
    destruct E as [os E]. refine (reachable_run_calls _ func_calls [] os func_state (R_start _) _ E).
    apply ok_callsb_ok. vm_compute. reflexivity. }
  split; [eexists; vm_compute; reflexivity|]. split; [intros X; split; reflexivity|].
  repeat (split; [vm_compute; reflexivity|]). split; [apply ok_callsb_ok; vm_compute; reflexivity|].
  repeat constructor; cbn; intros [_ H]; discriminate H.
Qed.

Print Assumptions c55_get.
Print Assumptions c55_set_get.
Print Assumptions c55_is_nil.
