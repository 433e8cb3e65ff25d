(** * C94: programs that change both things a map hands out *)
From Coq Require Import Ascii String List NArith ZArith Bool.
From Verif Require Import GoStr GoNum GoFloat Heap Common ValueModel ArrayModel MapModel JsonModel GetterModel
  SpecDict SpecWorld SpecValues World Reach ExampleState SpecRelabel RelabelModel SpecHanded HandedModel HandedFacts.
Import ListNotations.
Open Scope nat_scope.

(** Programs that write into slices returned by GetKeys() and call the methods of lists returned by Values():
    every call returns what [spec_deeds] says, and in the end every map answers every getter about every key as
    after its own calls alone. *)
Theorem c94_program : forall X h ss,
  reachable X h -> ok_deeds ss (view h) (names_of (view h)) (lists_of (view h)) ->
  exists h1 h2, run_deeds ss h = Ok (fst (fst (fst (spec_deeds ss (view h) (names_of (view h)) (lists_of (view h))))), h1)
    /\ run_calls (own_calls ss) h = Ok (fst (spec_calls (own_calls ss) (view h)), h2) /\ reachable X h2
    /\ (forall m k g, has (w_map (view h2)) m -> run_getter g X h1 m k = run_getter g X h2 m k).
Proof. exact handed_program. Qed.

(** Two programs that make the same calls on their maps, arrays and values cannot be told apart by getters, whatever
    either of them does to what the maps hand out. *)
Theorem c94_alike : forall X h ss ss', reachable X h ->
  ok_deeds ss (view h) (names_of (view h)) (lists_of (view h)) -> ok_deeds ss' (view h) (names_of (view h)) (lists_of (view h)) ->
  own_calls ss = own_calls ss' ->
  exists os h1 os' h1', run_deeds ss h = Ok (os, h1) /\ run_deeds ss' h = Ok (os', h1')
    /\ forall m k g, has (w_map (snd (spec_calls (own_calls ss) (view h)))) m -> run_getter g X h1 m k = run_getter g X h1' m k.
Proof. exact handed_alike. Qed.

(** GetKeys() lists at least as many names as the map holds keys: a map that lists nothing holds nothing. *)
Theorem c94_count : forall X h ss,
  reachable X h -> ok_deeds ss (view h) (names_of (view h)) (lists_of (view h)) ->
  forall os os2 h1 h2, run_deeds ss h = Ok (os, h1) -> run_calls (own_calls ss) h = Ok (os2, h2) ->
  forall m, has (w_map (view h2)) m ->
  exists ks, map_GetKeys h1 m = Ok ks /\ length (dict_keys (map_at (view h2) m)) <= length ks.
Proof. exact handed_count. Qed.

(** Maps and arrays that hold, at any depth, no map that lists other names than it holds are written as after the
    calls alone: texts do not depend on the lists of values. *)
Theorem c94_text : forall X h ss,
  reachable X h -> ok_deeds ss (view h) (names_of (view h)) (lists_of (view h)) ->
  forall os os2 h1 h2, run_deeds ss h = Ok (os, h1) -> run_calls (own_calls ss) h = Ok (os2, h2) ->
  forall U, as_held (view h2) (snd (fst (spec_deeds ss (view h) (names_of (view h)) (lists_of (view h))))) U ->
    (forall m f b, has (w_map (view h2)) m -> U m -> map_ToJSONString f X h1 m b = map_ToJSONString f X h2 m b)
    /\ (forall a f b, has (w_arr (view h2)) a -> U a -> arr_ToJSONString f X h1 a b = arr_ToJSONString f X h2 a b).
Proof. exact handed_others. Qed.

(** That GetKeys() and Values() say what a map holds is false for such programs: both can be made to say anything
    about a map with one entry, which still answers for that entry. *)
Definition handed_ex : list deed :=
  [Name (Rcall ANewMap); Name (Rcall (AMapSet 1 (lit "a") (IScal (SBool true)))); Name (Rwrite 1 0 (lit "x"));
   List 1 (LRemoveValueAtIndex 0); List 1 (LAppendValue None); List 1 (LAppendValue None);
   Name (Rcall (AMapGetKeys 1)); Name (Rcall (AMapValues 1)); Name (Rcall (AMapHasKey 1 (lit "a")))].
Theorem c94_said_refuted : exists h, run_deeds handed_ex []
    = Ok ([OHandle 1; ODone; ODone; OFlag true false; ODone; ODone; OKeys [lit "x"]; OElems [None; None]; OBool true], h)
  /\ map_GetBool std_ext h 1 (lit "a") = Ok (GVal (Some true)).
Proof. eexists. split; vm_compute; reflexivity. Qed.

Example c94_ex : ok_deeds handed_ex (view []) (names_of (view [])) (lists_of (view []))
  /\ own_calls handed_ex = [ANewMap; AMapSet 1 (lit "a") (IScal (SBool true)); AMapGetKeys 1; AMapValues 1; AMapHasKey 1 (lit "a")].
Proof. split; [|reflexivity]. cbn. unfold has, put; cbn. repeat split; eauto. Qed.
Example c94_alike_ex :
  let ss := firstn 3 handed_ex ++ skipn 6 handed_ex in
  own_calls ss = own_calls handed_ex /\ ok_deeds ss (view []) (names_of (view [])) (lists_of (view []))
  /\ has (w_map (snd (spec_calls (own_calls handed_ex) (view [])))) 1.
Proof. cbn zeta. split; [reflexivity|]. split; [|eexists; reflexivity]. cbn. unfold has, put; cbn. repeat split; eauto. Qed.
Example c94_text_ex :
  let ss := handed_ex ++ [Name (Rwrite 1 0 (lit "a"))] in
  let ns := snd (fst (spec_deeds ss (view []) (names_of (view [])) (lists_of (view [])))) in
  exists os h1 os2 h2, run_deeds ss [] = Ok (os, h1) /\ run_calls (own_calls ss) [] = Ok (os2, h2)
    /\ as_held (view h2) ns (fun x => x = 1 \/ x = 2) /\ has (w_map (view h2)) 1.
Proof.
  cbn zeta. eexists _, _, _, _. split; [vm_compute; reflexivity|]. split; [vm_compute; reflexivity|]. split; [|eexists; reflexivity].
  split; [|split].
  - intros m d [-> | ->] E; [|discriminate E]. vm_compute in E. injection E as <-. split; [reflexivity|]. constructor; [now right|constructor].
  - intros a l [-> | ->] E; discriminate E.
  - intros v i [-> | ->] E; [discriminate E|]. vm_compute in E. injection E as <-. exact Logic.I.
Qed.

Print Assumptions c94_program.
Print Assumptions c94_alike.
Print Assumptions c94_count.
Print Assumptions c94_text.
Print Assumptions c94_said_refuted.
