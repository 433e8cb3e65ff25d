(** * What GetKeys and Values hand out: C20, C22 *)
From Coq Require Import Ascii String List NArith ZArith Bool.
From Verif Require Import GoStr GoNum GoFloat Heap Common ValueModel ArrayModel MapModel
  SpecDict SpecWorld Inv World Reach KeysSlice SpecKeys KeysFacts ExampleState.
Import ListNotations.

(** ** C20 *)

(** The array returned by Values() is the private list of the map, not a copy:
    appending to it leaves the map with more values than keys. *)
Theorem c20_values_live : forall X h m o,
  reachable X h -> has (w_map (view h)) m ->
  exists ks vs a h',
    map_GetKeys h m = Ok ks /\ map_Values h m = Ok a /\ arr_GetValues h a = Ok vs /\ length vs = length ks
    /\ arr_AppendValue a o h = Ok (tt, h')
    /\ map_GetKeys h' m = Ok ks /\ map_Values h' m = Ok a /\ arr_GetValues h' a = Ok (vs ++ [o]).
Proof. exact values_live. Qed.

Example c20_values_live_ex : reachable std_ext ex_state /\ has (w_map (view ex_state)) 1%nat.
Proof. split; [apply ex_reachable|apply ex_map]. Qed.

(** ** C22 *)

(** KeysSlice.v describes the keys of every map: after any calls on any objects, the
    keys that GetKeys reports are the content of the slice after the operations these
    calls perform on it, however [append] chooses capacities. *)
Theorem c22_machine : forall X h m cs grow K,
  reachable X h -> has (w_map (view h)) m -> ok_calls cs (view h) ->
  kvalid K -> run_call (AMapGetKeys m) h = Ok (OKeys (k_content K), h) ->
  exists os h', run_calls cs h = Ok (os, h')
    /\ run_call (AMapGetKeys m) h' = Ok (OKeys (k_content (k_run grow (key_ops m cs) K)), h').
Proof. exact keys_machine. Qed.

Example c22_machine_ex :
  reachable std_ext ex_state /\ has (w_map (view ex_state)) 1%nat
  /\ ok_calls [AMapSet 1 (lit "z") INil; AMapRemoveKey 1 (lit "b"); AMapSet 1 (lit "a") INil] (view ex_state)
  /\ let K := k_run (fun _ => 16) (map (fun s => KSet (lit s)) ["a"; "b"; "c"; "d"; "e"; "f"; "g"; "h"; "j"; "i"]%string) k_new in
     kvalid K /\ run_call (AMapGetKeys 1) ex_state = Ok (OKeys (k_content K), ex_state).
Proof.
  split; [apply ex_reachable|]. split; [apply ex_map|]. split; [apply ok_callsb_ok; vm_compute; reflexivity|].
  split; [apply k_run_valid, kvalid_new|vm_compute; reflexivity].
Qed.

(** A slice obtained from GetKeys keeps its content under any later calls none of
    which removes a key. *)
Theorem c22_kept : forall grow before after,
  let K := k_run grow before k_new in
  no_removal grow after K ->
  content (k_mem (k_run grow after K)) (k_GetKeys K) = k_content K.
Proof. exact keys_kept. Qed.

Example c22_kept_ex :
  let K := k_run (fun _ => 4) [KSet (lit "a"); KSet (lit "b"); KRemove (lit "a")] k_new in
  no_removal (fun _ => 4) [KSet (lit "c"); KRemove (lit "a"); KSet (lit "b"); KSet (lit "d")] K
  /\ k_content K = [lit "b"] /\ s_cap (k_GetKeys K) = 4.
Proof.
  cbn zeta. split; [|split; vm_compute; reflexivity].
  cbn [no_removal]. repeat split. vm_compute. intuition discriminate.
Qed.

(** Removing a key shifts the keys behind it in every such slice and repeats the last
    one: the slice is wrong unless the removed key was the last. *)
Theorem c22_shifted : forall grow before k a b,
  let K := k_run grow before k_new in
  k_content K = a ++ k :: b -> ~ In k a ->
  content (k_mem (k_remove grow k K)) (k_GetKeys K) = a ++ b ++ [last b k]
  /\ k_content (k_remove grow k K) = a ++ b.
Proof. exact keys_shifted. Qed.

Theorem c22_refuted : forall grow, exists before k,
  let K := k_run grow before k_new in
  k_content K = [lit "a"; lit "b"; lit "c"]
  /\ content (k_mem (k_step grow (KRemove k) K)) (k_GetKeys K) = [lit "b"; lit "c"; lit "c"].
Proof. exact keys_refuted. Qed.

(** The program can change the keys of the map through the slice. *)
Theorem c22_written_refuted : forall grow before i x,
  let K := k_run grow before k_new in
  i < length (k_content K) ->
  k_content (k_write (k_GetKeys K) i x K) = upd (k_content K) i x.
Proof. exact keys_written. Qed.

Example c22_written_ex :
  1 < length (k_content (k_run (fun _ => 4) [KSet (lit "a"); KSet (lit "b"); KRemove (lit "a"); KSet (lit "c")] k_new)).
Proof. vm_compute. repeat constructor. Qed.

Print Assumptions c20_values_live.
Print Assumptions c22_machine.
Print Assumptions c22_kept.
Print Assumptions c22_shifted.
Print Assumptions c22_refuted.
Print Assumptions c22_written_refuted.
