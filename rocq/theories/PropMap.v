(** * Properties of maps, arrays and sharing: C19-C21, C23, C38, C44 *)
From Coq Require Import Ascii String List NArith ZArith Bool.
From Verif Require Import GoStr GoNum GoFloat Heap Common ValueModel ArrayModel MapModel GetterModel
  SpecDict SpecWorld Inv World Reach MapFacts ObjFacts MapMore ShareFacts ExampleState.
Import ListNotations.
Local Open Scope Z_scope.

(** ** C19 *)

(** Every history of valid calls, from any reachable state, succeeds and returns
    exactly the results of the ordered dictionaries and lists of SpecWorld.v. *)
Theorem c19_history : forall X h cs,
  reachable X h -> ok_calls cs (view h) ->
  exists h', run_calls cs h = Ok (fst (spec_calls cs (view h)), h').
Proof. exact history_out. Qed.

Example c19_history_ex :
  reachable std_ext ex_state
  /\ ok_calls [AMapSet 1 (lit "a") (IMap 6%nat); AMapRemoveKey 1 (lit "b"); AMapGetKeys 1;
               AMapSetValue 6 (lit "y") (Some 4%nat); AMapRemoveKey 6 (lit "z"); AMapValues 6]
       (view ex_state).
Proof. split; [apply ex_reachable|]. apply ok_callsb_ok. vm_compute. reflexivity. Qed.

(** Overwriting keeps the position, a new key goes last, a removed and re-added
    key goes last. *)
Theorem c19_positions : forall X h m k i,
  reachable X h -> has (w_map (view h)) m -> ok_object (view h) i ->
  exists ks h1 h2,
    run_call (AMapGetKeys m) h = Ok (OKeys ks, h)
    /\ run_calls [AMapSet m k i; AMapGetKeys m] h
       = Ok ([ODone; OKeys (if in_dec (list_eq_dec ascii_dec) k ks then ks else ks ++ [k])], h1)
    /\ (In k ks -> exists a b, ks = a ++ k :: b
          /\ run_calls [AMapRemoveKey m k; AMapSet m k i; AMapGetKeys m] h
             = Ok ([OFlag true false; ODone; OKeys (a ++ b ++ [k])], h2)).
Proof. exact keys_positions. Qed.

Example c19_positions_ex :
  reachable std_ext ex_state /\ has (w_map (view ex_state)) 1%nat /\ ok_object (view ex_state) (IArr 9%nat)
  /\ run_call (AMapGetKeys 1) ex_state
     = Ok (OKeys (map lit ["a"; "b"; "c"; "d"; "e"; "f"; "g"; "h"; "j"; "i"]%string), ex_state).
Proof.
  split; [apply ex_reachable|]. split; [apply ex_map|]. split; [apply ok_objectb_ok|]; vm_compute; reflexivity.
Qed.

(** ** C20 *)
Theorem c20_keys_values : forall X h m,
  reachable X h -> has (w_map (view h)) m ->
  exists ks vs,
    run_call (AMapGetKeys m) h = Ok (OKeys ks, h)
    /\ run_call (AMapValues m) h = Ok (OElems vs, h)
    /\ NoDup ks /\ length vs = length ks
    /\ (forall k, exists b, run_call (AMapHasKey m k) h = Ok (OBool b, h) /\ (b = true <-> In k ks))
    /\ (forall n k, nth_error ks n = Some k ->
          exists o, nth_error vs n = Some o /\ run_call (AMapGetValue m k) h = Ok (OValue o, h))
    /\ (forall k, ~ In k ks -> run_call (AMapGetValue m k) h = Ok (OValue None, h)).
Proof. exact map_observations. Qed.

Example c20_keys_values_ex : reachable std_ext ex_state /\ has (w_map (view ex_state)) 1%nat.
Proof. split; [apply ex_reachable|apply ex_map]. Qed.

(** ** C21 *)
Theorem c21_remove_key : forall X h m k,
  reachable X h -> has (w_map (view h)) m ->
  exists ks vs,
    run_calls [AMapGetKeys m; AMapValues m] h = Ok ([OKeys ks; OElems vs], h)
    /\ (In k ks ->
        exists h' a b va v vb,
          run_call (AMapRemoveKey m k) h = Ok (OFlag true false, h')
          /\ ks = a ++ k :: b /\ vs = va ++ v :: vb /\ length va = length a
          /\ run_calls [AMapGetKeys m; AMapValues m; AMapHasKey m k] h'
             = Ok ([OKeys (a ++ b); OElems (va ++ vb); OBool false], h')
          /\ (forall m2, m2 <> m -> w_map (view h') m2 = w_map (view h) m2)
          /\ (forall l, w_arr (view h') l = w_arr (view h) l)
          /\ (forall l, w_val (view h') l = w_val (view h) l)
          /\ (forall l, w_var (view h') l = w_var (view h) l))
    /\ (~ In k ks -> run_call (AMapRemoveKey m k) h = Ok (OFlag false true, h)).
Proof. exact map_remove. Qed.

Example c21_remove_key_ex :
  reachable std_ext ex_state /\ has (w_map (view ex_state)) 1%nat
  /\ run_call (AMapHasKey 1 (lit "c")) ex_state = Ok (OBool true, ex_state)
  /\ run_call (AMapHasKey 1 (lit "z")) ex_state = Ok (OBool false, ex_state).
Proof. split; [apply ex_reachable|]. split; [apply ex_map|]. split; vm_compute; reflexivity. Qed.

(** ** C23 *)

(** Histories of array calls are covered by [c19_history]; this spells out the
    index operations. *)
Theorem c23_array_index : forall X h a n o,
  reachable X h -> has (w_arr (view h)) a -> ok_value_handle (view h) o ->
  exists l, run_calls [AArrGetValues a; AArrLen a] h = Ok ([OElems l; OLen (Z.of_nat (length l))], h)
    /\ (n < 0 \/ Z.of_nat (length l) <= n ->
        run_call (AArrSetValueAtIndex a n o) h = Ok (OFlag false true, h)
        /\ run_call (AArrRemoveValueAtIndex a n) h = Ok (OFlag false true, h))
    /\ (0 <= n < Z.of_nat (length l) ->
        exists l1 x l2 h1 h2, l = l1 ++ x :: l2 /\ Z.of_nat (length l1) = n
        /\ run_calls [AArrSetValueAtIndex a n o; AArrGetValues a] h
           = Ok ([OFlag true false; OElems (l1 ++ o :: l2)], h1)
        /\ run_calls [AArrRemoveValueAtIndex a n; AArrGetValues a] h
           = Ok ([OFlag true false; OElems (l1 ++ l2)], h2)).
Proof. exact array_index. Qed.

Example c23_array_index_ex :
  reachable std_ext ex_state /\ has (w_arr (view ex_state)) 9%nat /\ ok_value_handle (view ex_state) (Some 4%nat)
  /\ run_call (AArrLen 9) ex_state = Ok (OLen 2, ex_state).
Proof.
  split; [apply ex_reachable|]. split; [apply ex_arr|]. split; [apply ok_valueb_ok|]; vm_compute; reflexivity.
Qed.

(** ** C38 *)

(** A container stored under a key is handed out again by GetMap/GetArray as the
    same object, whatever valid history runs in between, as long as that slot is
    not overwritten; the history may act on the container through either
    handle. *)
Theorem c38_shared_set : forall X h m k i z cs,
  reachable X h -> has (w_map (view h)) m -> ok_object (view h) i ->
  exists h1, run_call (AMapSet m k i) h = Ok (ODone, h1) /\ reachable X h1
   /\ (ok_calls cs (view h1) -> Forall (fun c => ~ touches m k (w_next (view h)) c) cs ->
       exists h2, run_calls cs h1 = Ok (fst (spec_calls cs (view h1)), h2) /\ reachable X h2
        /\ (i = IMap z \/ i = IPMap (Some z) ->
              map_GetMap X h2 m k = Ok (GVal (Some z)) /\ map_GetMapValue X h2 m k = Ok (GVal z))
        /\ (i = IArr z \/ i = IPArr (Some z) ->
              map_GetArray X h2 m k = Ok (GVal (Some z)) /\ map_GetArrayValue X h2 m k = Ok (GVal z))).
Proof. exact shared_set. Qed.

Theorem c38_shared_append : forall X h a i z,
  reachable X h -> has (w_arr (view h)) a -> ok_object (view h) i ->
  exists h1 v l, run_calls [AArrAppend a i; AArrGetValues a] h = Ok ([ODone; OElems (l ++ [Some v])], h1)
    /\ reachable X h1
    /\ (i = IMap z \/ i = IPMap (Some z) ->
          value_GetMap X h1 v = Ok (GVal (Some z))
          /\ arr_GetMap X h1 a (Z.of_nat (length l)) = Ok (GVal z))
    /\ (i = IArr z \/ i = IPArr (Some z) -> value_GetArray X h1 v = Ok (GVal (Some z))).
Proof. exact shared_append. Qed.

Example c38_ex :
  reachable std_ext ex_state /\ has (w_map (view ex_state)) 1%nat /\ has (w_arr (view ex_state)) 9%nat
  /\ ok_object (view ex_state) (IPMap (Some 6%nat))
  /\ exists h1, run_call (AMapSet 1 (lit "k") (IPMap (Some 6%nat))) ex_state = Ok (ODone, h1)
       /\ ok_calls [AMapSet 6 (lit "y") INil; AMapRemoveKey 1 (lit "a"); AMapSet 1 (lit "b") INil] (view h1)
       /\ Forall (fun c => ~ touches 1 (lit "k") (w_next (view ex_state)) c)
            [AMapSet 6 (lit "y") INil; AMapRemoveKey 1 (lit "a"); AMapSet 1 (lit "b") INil].
Proof.
  split; [apply ex_reachable|]. split; [apply ex_map|]. split; [apply ex_arr|].
  split; [apply ok_objectb_ok; vm_compute; reflexivity|].
  eexists. split; [vm_compute; reflexivity|]. split; [apply ok_callsb_ok; vm_compute; reflexivity|].
  repeat constructor; intros [H1 H2]; discriminate.
Qed.

(** ** C44 *)

(** [l] is the content of the Go map in the order the range statement happens to
    visit it; the lookups do not depend on that order. *)
Theorem c44_map_of_values : forall X h l,
  reachable X h -> NoDup (map fst l) -> Forall (fun ki => ok_object (view h) (snd ki)) l ->
  exists m h' d, new_map_of_values X (Some l) h = Ok (m, h') /\ reachable X h'
    /\ (w_next (view h) <= m)%nat
    /\ w_map (view h') m = Some d
    /\ dict_keys d = map fst l
    /\ (forall k i, In (k, i) l -> exists o, dict_get d k = Some o /\ holds (view h) (view h') o i)
    /\ (forall k, ~ In k (map fst l) -> dict_get d k = None)
    /\ (forall m2, m2 <> m -> w_map (view h') m2 = w_map (view h) m2)
    /\ (forall a, w_arr (view h') a = w_arr (view h) a)
    /\ (forall v, (v < w_next (view h))%nat -> w_val (view h') v = w_val (view h) v
                                              /\ w_var (view h') v = w_var (view h) v).
Proof. exact map_of_values_holds. Qed.

Theorem c44_array_of_values : forall X h l,
  reachable X h -> Forall (ok_object (view h)) l ->
  exists a h' os, new_array_of_values X (Some l) h = Ok (a, h') /\ reachable X h'
    /\ (w_next (view h) <= a)%nat
    /\ w_arr (view h') a = Some os
    /\ Forall2 (holds (view h) (view h')) os l
    /\ (forall m, w_map (view h') m = w_map (view h) m)
    /\ (forall a2, a2 <> a -> w_arr (view h') a2 = w_arr (view h) a2)
    /\ (forall v, (v < w_next (view h))%nat -> w_val (view h') v = w_val (view h) v
                                              /\ w_var (view h') v = w_var (view h) v).
Proof. exact array_of_values_holds. Qed.

Example c44_ex :
  reachable std_ext ex_state
  /\ NoDup (map fst [(lit "q", IPVal (Some 4%nat)); (lit "p", IMap 6%nat); (lit "r", IPVal None)])
  /\ Forall (fun ki => ok_object (view ex_state) (snd ki))
       [(lit "q", IPVal (Some 4%nat)); (lit "p", IMap 6%nat); (lit "r", IPVal None)].
Proof.
  split; [apply ex_reachable|]. split.
  - repeat constructor; cbn; intuition discriminate.
  - repeat constructor; apply ok_objectb_ok; vm_compute; reflexivity.
Qed.

Print Assumptions c19_history.
Print Assumptions c19_positions.
Print Assumptions c20_keys_values.
Print Assumptions c21_remove_key.
Print Assumptions c23_array_index.
Print Assumptions c38_shared_set.
Print Assumptions c38_shared_append.
Print Assumptions c44_map_of_values.
Print Assumptions c44_array_of_values.
