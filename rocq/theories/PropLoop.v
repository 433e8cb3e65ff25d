(** * C84: removing in a loop *)
From Coq Require Import Ascii String List NArith ZArith Bool.
From Verif Require Import GoStr GoNum GoFloat Heap Common ValueModel ArrayModel MapModel SpecWorld World Reach ExampleState
  KeysSlice SpecKeys KeysFacts SpecLoop LoopModel LoopFacts.
Import ListNotations.
Open Scope nat_scope.

(** for _, k := range m.GetKeys() { if p(k) { m.RemoveKey(k) } }
    [before] is what was set and removed before on the map: it decides which spare capacity the slice has. *)
Theorem c84_keys : forall X h m grow before p,
  let K := k_run grow before k_new in
  reachable X h -> has (w_map (view h)) m -> run_call (AMapGetKeys m) h = Ok (OKeys (k_content K), h) ->
  exists os h', run_calls (map (AMapRemoveKey m) (fst (loop grow p K))) h = Ok (os, h')
    /\ k_content (snd (loop grow p K)) = leftover p (k_content K)
    /\ run_call (AMapGetKeys m) h' = Ok (OKeys (leftover p (k_content K)), h').
Proof. exact loop_removes. Qed.

Definition ex_keys : list string := ["a"; "b"; "c"; "d"; "e"; "f"; "g"; "h"; "j"; "i"]%string.
Definition ex_map_of : kmap := k_run (fun _ => 16) (map (fun s => KSet (lit s)) ex_keys) k_new.
Definition ex_sel (k : str) : bool := existsb (fun s => str_eqb k (lit s)) ["a"; "b"; "d"; "e"; "f"; "j"; "i"]%string.

Example c84_keys_ex :
  reachable std_ext ex_state /\ has (w_map (view ex_state)) 1
  /\ run_call (AMapGetKeys 1) ex_state = Ok (OKeys (k_content ex_map_of), ex_state)
  /\ fst (loop (fun _ => 16) ex_sel ex_map_of) = map lit ["a"; "d"; "f"; "j"; "i"; "i"; "i"; "i"]%string
  /\ k_content (snd (loop (fun _ => 16) ex_sel ex_map_of)) = map lit ["b"; "c"; "e"; "g"; "h"]%string.
Proof. split; [apply ex_reachable|]. split; [apply ex_map|]. repeat split; vm_compute; reflexivity. Qed.

(** The loop removes all keys with p exactly if no two of them follow each other, but the last two. *)
Theorem c84_right : forall (p : str -> bool) l, leftover p l = filter (fun k => negb (p k)) l <-> spaced p l.
Proof. exact leftover_right. Qed.

Example c84_right_ex :
  spaced ex_sel (map lit ["a"; "c"; "d"; "g"; "f"; "i"]%string) /\ ~ spaced ex_sel (map lit ["a"; "b"; "c"]%string).
Proof.
  split.
  - vm_compute. intuition discriminate.
  - vm_compute. intros [H _]. apply H. auto.
Qed.

(** The loop that is meant to empty the map leaves every second key. *)
Theorem c84_clear_refuted : forall X h m grow before,
  let K := k_run grow before k_new in
  reachable X h -> has (w_map (view h)) m -> run_call (AMapGetKeys m) h = Ok (OKeys (k_content K), h) ->
  exists os h', run_calls (map (AMapRemoveKey m) (fst (loop grow (fun _ => true) K))) h = Ok (os, h')
    /\ run_call (AMapGetKeys m) h' = Ok (OKeys (every_second (removelast (k_content K))), h').
Proof. exact loop_clear. Qed.

Example c84_clear_ex : every_second (removelast (map lit ex_keys)) = map lit ["b"; "d"; "f"; "h"]%string.
Proof. vm_compute. reflexivity. Qed.

(** A loop over a copy of the keys removes all of them. *)
Theorem c84_copy : forall X h m l p,
  reachable X h -> has (w_map (view h)) m -> run_call (AMapGetKeys m) h = Ok (OKeys l, h) ->
  exists os h', run_calls (map (AMapRemoveKey m) (filter p l)) h = Ok (os, h')
    /\ run_call (AMapGetKeys m) h' = Ok (OKeys (filter (fun k => negb (p k)) l), h').
Proof. exact copy_removes. Qed.

Example c84_copy_ex :
  reachable std_ext ex_state /\ has (w_map (view ex_state)) 1
  /\ run_call (AMapGetKeys 1) ex_state = Ok (OKeys (map lit ex_keys), ex_state)
  /\ filter (fun k => negb (ex_sel k)) (map lit ex_keys) = map lit ["c"; "g"; "h"]%string.
Proof. split; [apply ex_reachable|]. split; [apply ex_map|]. split; vm_compute; reflexivity. Qed.

(** Removing the indexes of an array in increasing order leaves every second element. *)
Theorem c84_forward_refuted : forall h a l,
  run_call (AArrGetValues a) h = Ok (OElems l, h) ->
  exists os h', run_calls (removes_at a (seq 0 (length l))) h = Ok (os, h')
    /\ run_call (AArrGetValues a) h' = Ok (OElems (every_second l), h').
Proof. exact arr_forward. Qed.

(** In decreasing order exactly the selected elements go. *)
Theorem c84_backward : forall h a l sel,
  run_call (AArrGetValues a) h = Ok (OElems l, h) ->
  exists os h', run_calls (removes_at a (rev (filter sel (seq 0 (length l))))) h = Ok (os, h')
    /\ run_call (AArrGetValues a) h' = Ok (OElems (unselected sel 0 l), h').
Proof. exact arr_backward. Qed.

Example c84_arr_ex : exists x y, x <> y /\ run_call (AArrGetValues 9) ex_state = Ok (OElems [x; y], ex_state)
  /\ every_second [x; y] = [y] /\ unselected (Nat.eqb 1) 0 [x; y] = [x] /\ rev (filter (Nat.ltb 0) (seq 0 4)) = [3; 2; 1].
Proof. eexists _, _. split; [|split; [vm_compute; reflexivity|repeat split]]. discriminate. Qed.

Print Assumptions c84_keys.
Print Assumptions c84_right.
Print Assumptions c84_clear_refuted.
Print Assumptions c84_copy.
Print Assumptions c84_forward_refuted.
Print Assumptions c84_backward.
