(** * Times: C58 *)
From Coq Require Import Ascii String List NArith ZArith Bool Lia.
From Verif Require Import GoStr GoNum GoFloat Heap Common ValueModel ArrayModel MapModel TimeModel
  SpecDict SpecWorld SpecString SpecTime Inv World Reach MapFacts TimeFacts ExampleState.
Import ListNotations.

(** GetTime(k) and GetTimeWithDecimalPlaces(k, n) of a map, for every time library: nothing
    for a key without an object and for an object that counts as unset, otherwise what the
    library answers about the stored object, whatever else the state contains. *)
Theorem c58_map : forall X L h m k,
  reachable X h -> has (w_map (view h)) m ->
  map_GetTime L X h m k = time_answer (t_get L) X (view h) (object_at (view h) m k)
  /\ forall n, map_GetTimeWithDecimalPlaces L n X h m k = time_answer (t_places L n) X (view h) (object_at (view h) m k).
Proof. exact time_get. Qed.

(** The same methods of a Value. *)
Theorem c58_value : forall X L h v i,
  reachable X h -> w_val (view h) v = Some i ->
  value_GetTime L X h v = time_answer (t_get L) X (view h) (Some i)
  /\ forall n, value_GetTimeWithDecimalPlaces L n X h v = time_answer (t_places L n) X (view h) (Some i).
Proof. exact time_value. Qed.

(** GetTimeValue of a Value asks the library also about unset objects, and turns the
    answer without a time and without errors into the zero time without an error. *)
Theorem c58_time_value : forall X L h v i,
  reachable X h -> w_val (view h) v = Some i ->
  value_GetTimeValue L h v
  = rbind (t_get L (question (view h) i))
      (fun r => Ok (match r with GErr e => GErr e | GVal None => GVal (t_zero L) | GVal (Some t) => GVal t end)).
Proof. exact value_timevalue_spec. Qed.

(** After SetTime(k, t) and any calls that do not write that slot, GetTime(k) is the
    library's reading of t if t is not nil and the library's type predicates know
    *time.Time, and otherwise nothing, without an error. *)
Theorem c58_set_get : forall X L h m k t cs,
  reachable X h -> has (w_map (view h)) m ->
  exists h1, run_call (AMapSet m k (ITime t)) h = Ok (ODone, h1) /\ reachable X h1
    /\ (ok_calls cs (view h1) -> Forall (fun c => ~ touches m k (w_next (view h)) c) cs ->
        exists h2, run_calls cs h1 = Ok (fst (spec_calls cs (view h1)), h2) /\ reachable X h2
          /\ map_GetTime L X h2 m k
             = match t with
               | Some p => if x_known X TPTime then t_get L (TimeArg TPTime None (Some p)) else Ok (GVal None)
               | None => Ok (GVal None)
               end).
Proof. exact time_set. Qed.

(** A library that returns times unchanged and finds no time in anything else. *)
Definition plain_lib : timelib := TimeLib (fun a => Ok (GVal (ta_time a))) (fun _ a => Ok (GVal (ta_time a))) 0.
Definition time_calls : list api :=
  [ANewMap; AMapSet 1 (lit "t") (ITime (Some 7)); AMapSet 1 (lit "s") (IScal (SStr (lit "2024-01-01")));
   ANewValue (ITime (Some 7)); ANewValue INil]%nat.
Definition time_state : heap := match run_calls time_calls [] with Ok (_, h) => h | _ => [] end.
Lemma time_reachable : forall X, reachable X time_state.
Proof.
  intros X. assert (E : exists os, run_calls time_calls [] = Ok (os, time_state)) by (eexists; vm_compute; reflexivity).
  destruct E as [os E]. refine (reachable_run_calls _ time_calls [] os time_state (R_start _) _ E).
  apply ok_callsb_ok. vm_compute. reflexivity.
Qed.

(** That a stored time is returned is false even with a library that returns times
    unchanged: when its predicates do not know *time.Time, GetTime(k) after SetTime(k, t)
    is nothing, although GetTimeValue of a Value with the same content is t. *)
Theorem c58_lost_refuted : exists L, (forall t, t_get L (TimeArg TPTime None (Some t)) = Ok (GVal (Some t)))
  /\ forall X, x_known X TPTime = false ->
     exists h m k v, reachable X h /\ has (w_map (view h)) m /\ object_at (view h) m k = Some (ITime (Some 7%nat))
       /\ w_val (view h) v = Some (ITime (Some 7%nat))
       /\ map_GetTime L X h m k = Ok (GVal None) /\ value_GetTime L X h v = Ok (GVal None)
       /\ value_GetTimeValue L h v = Ok (GVal 7%nat).
Proof.
  exists plain_lib. split; [reflexivity|]. intros X K. exists time_state, 1%nat, (lit "t"), 4%nat.
  assert (Hm : has (w_map (view time_state)) 1%nat) by (eexists; vm_compute; reflexivity).
  assert (Hv : w_val (view time_state) 4%nat = Some (ITime (Some 7%nat))) by (vm_compute; reflexivity).
  assert (Ho : object_at (view time_state) 1%nat (lit "t") = Some (ITime (Some 7%nat))) by (vm_compute; reflexivity).
  split; [apply time_reachable|]. do 3 (split; [assumption|]).
  rewrite (proj1 (c58_map X plain_lib _ _ (lit "t") (time_reachable X) Hm)), Ho.
  rewrite (proj1 (c58_value X plain_lib _ _ _ (time_reachable X) Hv)).
  rewrite (c58_time_value X plain_lib _ _ _ (time_reachable X) Hv).
  unfold time_answer, unset. cbn [nil_object known orb]. rewrite K. repeat split.
Qed.

(** That GetTimeValue reports a missing time is false: a Value of nil gives the zero time
    and no error, with a library that finds no time in nil. *)
Theorem c58_missing_refuted : exists L, forall X, exists h v,
  reachable X h /\ w_val (view h) v = Some INil /\ value_GetTimeValue L h v = Ok (GVal (t_zero L)).
Proof.
  exists plain_lib. intros X. exists time_state, 5%nat. split; [apply time_reachable|].
  split; vm_compute; reflexivity.
Qed.

Definition known_ext : ext :=
  Ext (x_is64 std_ext) (x_typed_nil std_ext) (fun _ => true) (x_is_array std_ext) (x_escape std_ext) (x_time std_ext)
      (x_sprint std_ext) (x_errorf std_ext).
Example c58_ex : has (w_map (view time_state)) 1%nat /\ w_val (view time_state) 4%nat = Some (ITime (Some 7%nat))
  /\ map_GetTime plain_lib known_ext time_state 1 (lit "t") = Ok (GVal (Some 7%nat))
  /\ map_GetTime plain_lib known_ext time_state 1 (lit "s") = Ok (GVal None)
  /\ map_GetTime plain_lib known_ext time_state 1 (lit "x") = Ok (GVal None)
  /\ question (view time_state) (IScal (SStr (lit "2024-01-01"))) = TimeArg (TScal TyStr) (Some (SStr (lit "2024-01-01"))) None
  /\ ok_calls [AMapSet 1 (lit "s") INil; AMapRemoveKey 1 (lit "s")] (view time_state)
  /\ Forall (fun c => ~ touches 1 (lit "t") 2 c) [AMapSet 1 (lit "s") INil; AMapRemoveKey 1 (lit "s")].
Proof.
  split; [eexists; vm_compute; reflexivity|]. repeat (split; [vm_compute; reflexivity|]).
  split; [apply ok_callsb_ok; vm_compute; reflexivity|].
  repeat constructor; cbn; intros [_ H]; discriminate H.
Qed.

Print Assumptions c58_map.
Print Assumptions c58_value.
Print Assumptions c58_time_value.
Print Assumptions c58_set_get.
Print Assumptions c58_lost_refuted.
Print Assumptions c58_missing_refuted.
