(** * C93: programs that write other strings into the slice returned by GetKeys *)
From Coq Require Import Ascii String List NArith ZArith Bool.
From Verif Require Import GoStr GoNum GoFloat Heap Common ValueModel ArrayModel MapModel JsonModel GetterModel
  SpecDict SpecWorld SpecValues SpecRender World Reach ExampleState SpecRelabel RelabelModel RelabelTop.
Import ListNotations.
Open Scope nat_scope.

(** Programs that also write into slices of keys: every call returns what [spec_relabels] says, and in the end
    every map answers every getter about every key as after the same program without the writes; only what
    GetKeys() lists differs. *)
Theorem c93_program : forall X h ss,
  reachable X h -> ok_relabels ss (view h) (names_of (view h)) (lists_of (view h)) ->
  exists h1 h2, run_relabels ss h = Ok (fst (fst (fst (spec_relabels ss (view h) (names_of (view h)) (lists_of (view h))))), h1)
    /\ run_calls (without_writes ss) h = Ok (fst (spec_calls (without_writes ss) (view h)), h2) /\ reachable X h2
    /\ (forall m k g, has (w_map (view h2)) m -> run_getter g X h1 m k = run_getter g X h2 m k)
    /\ (forall m, has (w_map (view h2)) m ->
          map_GetKeys h1 m = Ok (snd (fst (spec_relabels ss (view h) (names_of (view h)) (lists_of (view h)))) m)).
Proof. exact relabel_program. Qed.

(** Maps, arrays and values that hold, at any depth, no map that lists other names than it holds are written as without
    the writes. *)
Theorem c93_others : forall X h ss,
  reachable X h -> ok_relabels ss (view h) (names_of (view h)) (lists_of (view h)) ->
  forall os os2 h1 h2, run_relabels ss h = Ok (os, h1) -> run_calls (without_writes ss) h = Ok (os2, h2) ->
  forall U, as_held (view h2) (snd (fst (spec_relabels ss (view h) (names_of (view h)) (lists_of (view h))))) U ->
    (forall m f b, has (w_map (view h2)) m -> U m -> map_ToJSONString f X h1 m b = map_ToJSONString f X h2 m b)
    /\ (forall a f b, has (w_arr (view h2)) a -> U a -> arr_ToJSONString f X h1 a b = arr_ToJSONString f X h2 a b)
    /\ (forall v f, has (w_val (view h2)) v -> U v -> conv_json f X h1 (IPVal (Some v)) = conv_json f X h2 (IPVal (Some v))).
Proof. exact relabel_others. Qed.

(** The text of any map: a member for each name that GetKeys() lists, in that order and as often as it is listed,
    null when the map holds nothing under it.  What is held under other names is not written. *)
Theorem c93_text : forall X h ss,
  reachable X h -> ok_relabels ss (view h) (names_of (view h)) (lists_of (view h)) ->
  forall os os2 h1 h2, run_relabels ss h = Ok (os, h1) -> run_calls (without_writes ss) h = Ok (os2, h2) ->
  forall m f b t, escape_ok X -> has (w_map (view h2)) m ->
  (forall k v, In k (snd (fst (spec_relabels ss (view h) (names_of (view h)) (lists_of (view h)))) m) ->
     dict_get (map_at (view h2) m) k = Some (Some v) -> conv_json (S f) X h1 (IPVal (Some v)) = Ok (t k, [])) ->
  map_ToJSONString (S f) X h1 m (Some b)
  = Ok (Some (b ++ lit "{" ++ commas (map (fun k => quote k ++ lit ":" ++ listed_member (map_at (view h2) m) t k)
                                       (snd (fst (spec_relabels ss (view h) (names_of (view h)) (lists_of (view h)))) m)) ++ lit "}"), []).
Proof. exact relabel_text. Qed.

(** GetKeys() and Values() stay equally long. *)
Theorem c93_level : forall X h ss,
  reachable X h -> ok_relabels ss (view h) (names_of (view h)) (lists_of (view h)) ->
  forall os os2 h1 h2, run_relabels ss h = Ok (os, h1) -> run_calls (without_writes ss) h = Ok (os2, h2) ->
  forall m, has (w_map (view h2)) m ->
  exists ks a vs, map_GetKeys h1 m = Ok ks /\ map_Values h1 m = Ok a /\ arr_GetValues h1 a = Ok vs /\ length ks = length vs.
Proof. exact relabel_equal. Qed.

(** A key [k] over which [k2] has been written: the map holds [k] and not [k2]; RemoveKey(k) removes it and returns
    an error all the same, and [k2] stays listed. *)
Theorem c93_removed : forall X h m i k k2,
  reachable X h -> has (w_map (view h)) m ->
  nth_error (dict_keys (map_at (view h) m)) i = Some k -> dict_has (map_at (view h) m) k2 = false ->
  exists h1, run_relabels [Rwrite m i k2; Rcall (AMapHasKey m k); Rcall (AMapHasKey m k2); Rcall (AMapRemoveKey m k);
      Rcall (AMapHasKey m k); Rcall (AMapGetKeys m)] h
    = Ok ([ODone; OBool true; OBool false; OFlag true true; OBool false; OKeys (list_set (dict_keys (map_at (view h) m)) i k2)], h1).
Proof. exact one_removed. Qed.

(** Setting [k] does not list it again, setting [k2] lists it twice. *)
Theorem c93_set : forall X h m i k k2,
  reachable X h -> has (w_map (view h)) m ->
  nth_error (dict_keys (map_at (view h) m)) i = Some k -> dict_has (map_at (view h) m) k2 = false ->
  forall o, ok_value_handle (view h) o -> exists h1 h1',
    run_relabels [Rwrite m i k2; Rcall (AMapSetValue m k o); Rcall (AMapGetValue m k); Rcall (AMapGetKeys m)] h
      = Ok ([ODone; ODone; OValue o; OKeys (list_set (dict_keys (map_at (view h) m)) i k2)], h1)
    /\ run_relabels [Rwrite m i k2; Rcall (AMapSetValue m k2 o); Rcall (AMapGetValue m k2); Rcall (AMapGetKeys m)] h
      = Ok ([ODone; ODone; OValue o; OKeys (list_set (dict_keys (map_at (view h) m)) i k2 ++ [k2])], h1').
Proof. exact one_set. Qed.

(** That a map is written with what it holds is false for such programs: a key written in capitals loses its
    value in the text, a key set under the new name is written twice, and a map that holds nothing any more still
    has a member. *)
Definition relabel_ex : list relabel :=
  [Rcall ANewMap; Rcall (AMapSet 1 (lit "a") (IScal (SBool true))); Rcall (AMapSet 1 (lit "b") (IScal (SBool false))); Rwrite 1 0 (lit "A")].
Theorem c93_written_refuted :
  (exists os h, run_relabels relabel_ex [] = Ok (os, h)
     /\ map_ToJSONString 9 std_ext h 1 (Some []) = Ok (Some (lit "{""A"":null,""b"":false}"), [])
     /\ map_GetBool std_ext h 1 (lit "a") = Ok (GVal (Some true)))
  /\ (exists os h, run_relabels (relabel_ex ++ [Rcall (AMapSet 1 (lit "A") (IScal (SBool true)))]) [] = Ok (os, h)
     /\ map_ToJSONString 9 std_ext h 1 (Some []) = Ok (Some (lit "{""A"":true,""b"":false,""A"":true}"), []))
  /\ (exists os h, run_relabels (relabel_ex ++ [Rcall (AMapRemoveKey 1 (lit "a")); Rcall (AMapRemoveKey 1 (lit "b"))]) [] = Ok (os, h)
     /\ map_ToJSONString 9 std_ext h 1 (Some []) = Ok (Some (lit "{""A"":null}"), [])
     /\ forall k, map_HasKey h 1 k = Ok false).
Proof.
  split; [|split].
  - eexists _, _. split; [vm_compute; reflexivity|]. split; vm_compute; reflexivity.
  - eexists _, _. split; [vm_compute; reflexivity|]. vm_compute; reflexivity.
  - eexists _, _. split; [vm_compute; reflexivity|]. split; [vm_compute; reflexivity|]. intros k. reflexivity.
Qed.

Example c93_ex :
  let ss := relabel_ex ++ [Rcall (AMapGetKeys 1); Rcall (AMapHasKey 1 (lit "a")); Rcall (AMapRemoveKey 1 (lit "a")); Rcall (AMapValues 1)] in
  ok_relabels ss (view []) (names_of (view [])) (lists_of (view []))
  /\ fst (fst (fst (spec_relabels ss (view []) (names_of (view [])) (lists_of (view [])))))
     = [OHandle 1; ODone; ODone; ODone; OKeys [lit "A"; lit "b"]; OBool true; OFlag true true; OElems [Some 2; Some 3]].
Proof.
  cbn zeta. split; [|vm_compute; reflexivity]. cbn. unfold has, put; cbn. repeat split; eauto.
Qed.
Example c93_text_ex : exists os os2 h1 h2,
  run_relabels relabel_ex [] = Ok (os, h1) /\ run_calls (without_writes relabel_ex) [] = Ok (os2, h2)
  /\ escape_ok std_ext /\ has (w_map (view h2)) 1
  /\ (forall k v, In k (snd (fst (spec_relabels relabel_ex (view []) (names_of (view [])) (lists_of (view [])))) 1) ->
     dict_get (map_at (view h2) 1) k = Some (Some v) -> conv_json 9 std_ext h1 (IPVal (Some v)) = Ok (lit "false", [])).
Proof.
  eexists _, _, _, _. split; [vm_compute; reflexivity|]. split; [vm_compute; reflexivity|]. split; [intros k; reflexivity|].
  split; [eexists; reflexivity|].
  intros k v H. vm_compute in H. destruct H as [<- | [<- | []]]; intros E; [discriminate E|].
  assert (v = 3) as -> by (injection E as E; now symmetry). vm_compute. reflexivity.
Qed.
Example c93_held_ex :
  let ss := relabel_ex ++ [Rcall ANewMap; Rcall (AMapSet 5 (lit "c") (IScal (SBool true)))] in
  let ns := snd (fst (spec_relabels ss (view []) (names_of (view [])) (lists_of (view [])))) in
  exists os2 h2, run_calls (without_writes ss) [] = Ok (os2, h2) /\ ns 1 <> dict_keys (map_at (view h2) 1)
    /\ as_held (view h2) ns (fun x => x = 5 \/ x = 6) /\ has (w_map (view h2)) 5.
Proof.
  cbn zeta. eexists _, _. split; [vm_compute; reflexivity|]. split; [vm_compute; discriminate|]. split; [|eexists; reflexivity].
  split; [|split].
  - intros m d [-> | ->] E; [|discriminate E]. vm_compute in E. injection E as <-. split; [reflexivity|]. constructor; [now right|constructor].
  - intros a l [-> | ->] E; discriminate E.
  - intros v i [-> | ->] E; [discriminate E|]. vm_compute in E. injection E as <-. exact Logic.I.
Qed.
Example c93_others_ex :
  as_held (view ex_state) (names_of (view ex_state)) (fun _ => True) /\ has (w_map (view ex_state)) 1.
Proof.
  split; [|apply ex_map]. split; [|split].
  - intros m d _ E. unfold names_of, map_at. rewrite E. split; [reflexivity|]. apply Forall_forall. intros [x|] _; exact Logic.I.
  - intros a l _ _. apply Forall_forall. intros [x|] _; exact Logic.I.
  - intros v i _ _. destruct i as [|s|t o|m|[m|]|a|[a|]|v'|[v'|]| | |o|o| |o| | |o|o|n o]; exact Logic.I.
Qed.
Example c93_removed_ex : reachable std_ext ex_state /\ has (w_map (view ex_state)) 1
  /\ nth_error (dict_keys (map_at (view ex_state) 1)) 0 = Some (lit "a") /\ dict_has (map_at (view ex_state) 1) (lit "A") = false.
Proof. split; [apply ex_reachable|]. split; [apply ex_map|]. split; vm_compute; reflexivity. Qed.

Print Assumptions c93_program.
Print Assumptions c93_others.
Print Assumptions c93_text.
Print Assumptions c93_level.
Print Assumptions c93_removed.
Print Assumptions c93_set.
Print Assumptions c93_written_refuted.
