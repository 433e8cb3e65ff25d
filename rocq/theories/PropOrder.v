(** * C92: programs that sort the slice returned by GetKeys *)
From Coq Require Import Ascii String List NArith ZArith Bool Permutation.
From Verif Require Import GoStr GoNum GoFloat Heap Common ValueModel ArrayModel MapModel JsonModel GetterModel
  SpecDict SpecWorld SpecValues World Reach ExampleState KeysSlice SpecKeys SpecOrder OrderModel OrderFacts OrderSlice.
Import ListNotations.
Open Scope nat_scope.

(** Programs that also bring slices of keys into any other order: every call returns what [spec_acts] says,
    in which only the order of the entries of the map has changed, and in the end every map and array answers
    every getter, lists its keys and writes its text as in a state with these maps that the methods reach. *)
Theorem c92_program : forall X h ss,
  reachable X h -> ok_acts ss (view h) (lists_of (view h)) ->
  exists h1 h2, run_acts ss h = Ok (fst (fst (spec_acts ss (view h) (lists_of (view h)))), h1)
    /\ reachable X h2 /\ same_world (view h2) (snd (fst (spec_acts ss (view h) (lists_of (view h)))))
    /\ (forall m k g, has (w_map (view h2)) m -> run_getter g X h1 m k = run_getter g X h2 m k)
    /\ (forall m, has (w_map (view h2)) m -> map_GetKeys h1 m = map_GetKeys h2 m)
    /\ (forall m f b, has (w_map (view h2)) m -> map_ToJSONString f X h1 m b = map_ToJSONString f X h2 m b)
    /\ (forall a f b, has (w_arr (view h2)) a -> arr_ToJSONString f X h1 a b = arr_ToJSONString f X h2 a b).
Proof. exact order_program. Qed.

(** The writes into the slice with its backing array: the keys of the map are then those written. *)
Theorem c92_sorted : forall grow before ks,
  let K := k_run grow before k_new in
  Permutation (k_content K) ks -> k_content (k_writes (k_GetKeys K) 0 ks K) = ks.
Proof. exact sorted_now. Qed.

(** A slice that was taken before more keys were set: the older keys are sorted in place while the map still uses
    its memory, and the map does not change once it has left it. *)
Theorem c92_held : forall grow before later ks,
  let K := k_run grow before k_new in
  let K2 := k_run grow later K in
  no_removal grow later K -> Permutation (k_content K) ks ->
  let K' := k_writes (k_GetKeys K) 0 ks K2 in
  k_content K' = (if Nat.eqb (s_base (k_GetKeys K)) (s_base (k_keys K2)) then ks ++ skipn (length ks) (k_content K2) else k_content K2)
  /\ Permutation (k_content K2) (k_content K').
Proof. exact held_sorted. Qed.

(** Which of the two depends on capacities, which no method shows. *)
Theorem c92_depends_refuted : exists before later ks (g1 g2 : smem -> nat),
  let K g := k_run g before k_new in let K2 g := k_run g later (K g) in
  no_removal g1 later (K g1) /\ no_removal g2 later (K g2) /\ k_content (K g1) = k_content (K g2) /\ k_content (K2 g1) = k_content (K2 g2)
  /\ Permutation (k_content (K g1)) ks
  /\ k_content (k_writes (k_GetKeys (K g1)) 0 ks (K2 g1)) <> k_content (k_writes (k_GetKeys (K g2)) 0 ks (K2 g2)).
Proof. exact sorted_depends. Qed.

(** That Values() stays aligned with GetKeys() is false for such programs: after sorting, the values are listed in
    the old order, and a key that is set or removed changes the value of another one. *)
Definition order_program_ex : list act :=
  [Do (Call ANewMap); Do (Call (AMapSet 1 (lit "b") (IScal (SBool true)))); Do (Call (AMapSet 1 (lit "a") (IScal (SBool false))));
   Order 1 [lit "a"; lit "b"]; Do (Call (AMapGetKeys 1)); Do (Call (AMapGetValue 1 (lit "a"))); Do (Call (AMapValues 1));
   Do (Call (AMapRemoveKey 1 (lit "a"))); Do (Call (AMapGetKeys 1)); Do (Call (AMapGetValue 1 (lit "b"))); Do (Call (AMapValues 1))].
Theorem c92_aligned_refuted : forall X, exists h ss h1,
  reachable X h /\ ok_acts ss (view h) (lists_of (view h))
  /\ run_acts ss h
     = Ok ([OHandle 1; ODone; ODone; ODone; OKeys [lit "a"; lit "b"]; OValue (Some 3); OElems [Some 2; Some 3];
            OFlag true false; OKeys [lit "b"]; OValue (Some 2); OElems [Some 3]], h1).
Proof.
  intros X. exists [], order_program_ex. eexists. split; [constructor|]. split; [|vm_compute; reflexivity].
  cbn. unfold has, put; cbn. repeat split; eauto. apply perm_swap.
Qed.

Example c92_ex :
  let ss := [Order 1 (map lit ["i"; "j"; "h"; "g"; "f"; "e"; "d"; "c"; "b"; "a"]%string); Do (Call (AMapRemoveKey 1 (lit "c"))); Do (Call (AMapGetKeys 1))] in
  reachable std_ext ex_state /\ ok_acts ss (view ex_state) (lists_of (view ex_state))
  /\ fst (fst (spec_acts ss (view ex_state) (lists_of (view ex_state))))
     = [ODone; OFlag true false; OKeys (map lit ["i"; "j"; "h"; "g"; "f"; "e"; "d"; "b"; "a"]%string)].
Proof.
  cbn zeta. split; [apply ex_reachable|]. split; [|vm_compute; reflexivity].
  assert (E : dict_keys (map_at (view ex_state) 1) = rev (map lit ["i"; "j"; "h"; "g"; "f"; "e"; "d"; "c"; "b"; "a"]%string)) by (vm_compute; reflexivity).
  assert (B : forall d w, has (w_map (set_map w 1 d)) 1) by (intros d w; exists d; reflexivity).
  split; [split; [apply ex_map|]|].
  - rewrite E. apply Permutation_sym, Permutation_rev.
  - cbn [spec_act]. split; [apply B|]. cbn [spec_act spec_step spec_call]. destruct (dict_has _ _); (split; [apply B|exact Logic.I]).
Qed.
Example c92_text_ex : exists os h,
  run_acts [Do (Call ANewMap); Do (Call (AMapSet 1 (lit "b") (IScal (SBool true)))); Do (Call (AMapSet 1 (lit "a") (IScal (SBool false))));
            Order 1 [lit "a"; lit "b"]] [] = Ok (os, h)
  /\ map_ToJSONString 9 std_ext h 1 (Some []) = Ok (Some (lit "{""a"":false,""b"":true}"), []).
Proof. eexists _, _. split; [vm_compute; reflexivity|]. vm_compute. reflexivity. Qed.
Example c92_held_ex :
  let K := k_run (fun _ => 4) [KSet (lit "b"); KSet (lit "a")] k_new in
  no_removal (fun _ => 4) [KSet (lit "c"); KRemove (lit "z")] K /\ Permutation (k_content K) [lit "a"; lit "b"].
Proof.
  cbn zeta. split; [|vm_compute; apply perm_swap]. vm_compute. split; [exact Logic.I|]. split; [|exact Logic.I].
  intros [H|[H|[H|[]]]]; discriminate H.
Qed.

Print Assumptions c92_program.
Print Assumptions c92_sorted.
Print Assumptions c92_held.
Print Assumptions c92_depends_refuted.
Print Assumptions c92_aligned_refuted.
