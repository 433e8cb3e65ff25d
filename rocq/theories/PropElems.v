(** * C85: copied slices of the elements of an array *)
From Coq Require Import Ascii String List NArith ZArith Bool.
From Verif Require Import GoStr GoNum GoFloat Heap Common ValueModel ArrayModel MapModel SpecDict SpecWorld World Reach ExampleState
  KeysSlice ElemSlice SpecElems ElemFacts LoopModel.
Import ListNotations.
Open Scope nat_scope.

(** The slice with its backing arrays has the content of the array, through all histories of calls. *)
Theorem c85_machine : forall X h a cs grow E,
  reachable X h -> has (w_arr (view h)) a -> ok_calls cs (view h) ->
  evalid E -> run_call (AArrGetValues a) h = Ok (OElems (e_content E), h) ->
  exists os h', run_calls cs h = Ok (os, h')
    /\ run_call (AArrGetValues a) h' = Ok (OElems (e_content (e_run grow (elem_ops a cs (view h)) E)), h').
Proof. exact elem_machine. Qed.

Example c85_machine_ex : exists x y,
  let E := e_run (fun _ => 4) [EAppend x; EAppend y] e_new in
  let cs := [AArrAppend 9 INil; AArrSetValueAtIndex 9 1 x; AArrRemoveValueAtIndex 9 0; AArrRemoveValueAtIndex 9 7] in
  reachable std_ext ex_state /\ has (w_arr (view ex_state)) 9 /\ ok_calls cs (view ex_state)
  /\ evalid E /\ run_call (AArrGetValues 9) ex_state = Ok (OElems (e_content E), ex_state)
  /\ elem_ops 9 cs (view ex_state) = [EAppend (Some (length ex_state)); ESet 1 x; ERemove 0; ERemove 7].
Proof.
  exists (Some 10), (Some 11). cbn zeta. split; [apply ex_reachable|]. split; [apply ex_arr|].
  split; [apply ok_callsb_ok; vm_compute; reflexivity|].
  split; [apply e_run_valid, evalid_new|]. split; vm_compute; reflexivity.
Qed.

(** Everything about s := *a.GetValues(): it is a view of one piece of memory, which the array leaves when
    it grows beyond it. *)
Theorem c85_exact : forall grow before after,
  let E := e_run grow before e_new in
  let s := e_values E in
  v_content (e_mem (e_run grow after E)) s
  = seen (length (e_content E)) (nth (s_base s) (e_mem E) []) (length (e_content E)) after.
Proof. exact held_exact. Qed.

(** Appends are never seen: a loop over the elements that appends visits the old elements. *)
Theorem c85_appended : forall grow before after,
  let E := e_run grow before e_new in
  appends after -> v_content (e_mem (e_run grow after E)) (e_values E) = e_content E.
Proof. exact held_appended. Qed.

(** Set calls are seen as long as nothing is appended or removed. *)
Theorem c85_set : forall grow before after,
  let E := e_run grow before e_new in
  Forall (fun o => exists n x, o = ESet n x) after ->
  v_content (e_mem (e_run grow after E)) (e_values E) = e_content (e_run grow after E).
Proof. exact held_set. Qed.

(** A removal moves the elements under the slice, and the next append is seen at its end. *)
Theorem c85_removed : forall grow before l1 x l2,
  let E := e_run grow before e_new in
  e_content E = l1 ++ x :: l2 ->
  v_content (e_mem (e_run grow [ERemove (Z.of_nat (length l1))] E)) (e_values E) = l1 ++ l2 ++ [last l2 x]
  /\ forall y, v_content (e_mem (e_run grow [ERemove (Z.of_nat (length l1)); EAppend y] E)) (e_values E) = l1 ++ l2 ++ [y].
Proof. exact held_removed. Qed.

(** After more appends than there is room for, nothing is seen any more. *)
Theorem c85_left : forall grow before xs after,
  let E := e_run grow before e_new in
  s_cap (e_values E) < length (e_content E) + length xs ->
  v_content (e_mem (e_run grow (map EAppend xs ++ after) E)) (e_values E) = e_content E.
Proof. exact held_left. Qed.

(** So what is seen depends on capacities, which no method shows. *)
Theorem c85_depends_refuted : exists before after (g1 g2 : vmem -> nat),
  e_content (e_run g1 before e_new) = e_content (e_run g2 before e_new)
  /\ e_content (e_run g1 after (e_run g1 before e_new)) = e_content (e_run g2 after (e_run g2 before e_new))
  /\ v_content (e_mem (e_run g1 after (e_run g1 before e_new))) (e_values (e_run g1 before e_new))
     <> v_content (e_mem (e_run g2 after (e_run g2 before e_new))) (e_values (e_run g2 before e_new)).
Proof. exact held_depends. Qed.

Example c85_ex :
  let E := e_run (fun _ => 4) [EAppend (Some 5); EAppend None; EAppend (Some 6)] e_new in
  let see after := v_content (e_mem (e_run (fun _ => 4) after E)) (e_values E) in
  e_content E = [Some 5; None; Some 6] /\ s_cap (e_values E) = 4
  /\ appends [EAppend (Some 1); EAppend (Some 2)]
  /\ see [EAppend (Some 1); ESet 0 (Some 8)] = [Some 8; None; Some 6]
  /\ see [EAppend (Some 1); EAppend (Some 2); ESet 0 (Some 8)] = [Some 5; None; Some 6]
  /\ see [ERemove 0] = [None; Some 6; Some 6]
  /\ see [ERemove 0; EAppend (Some 9)] = [None; Some 6; Some 9].
Proof. cbn zeta. repeat split; try (vm_compute; reflexivity). repeat (apply Forall_cons; [eexists; reflexivity|]). apply Forall_nil. Qed.

(** for i, v := range *a.GetValues() { if p(v) { a.RemoveValueAtIndex(i) } } *)
Theorem c85_loop : forall grow p E h a,
  evalid E -> run_call (AArrGetValues a) h = Ok (OElems (e_content E), h) ->
  exists os h', run_calls (removes_at a (fst (elem_loop grow p E))) h = Ok (os, h')
    /\ run_call (AArrGetValues a) h' = Ok (OElems (skips p (e_content E)), h').
Proof. exact elem_loop_calls. Qed.

(** It removes all elements with p exactly if no two of them follow each other. *)
Theorem c85_right : forall (p : option nat -> bool) l, skips p l = filter (fun v => negb (p v)) l <-> apart p l.
Proof. exact skips_right. Qed.

Example c85_loop_ex : exists x y,
  let E := e_run (fun _ => 4) [EAppend x; EAppend y] e_new in
  evalid E /\ run_call (AArrGetValues 9) ex_state = Ok (OElems (e_content E), ex_state)
  /\ fst (elem_loop (fun _ => 4) (fun _ => true) E) = [0; 1] /\ skips (fun _ => true) [x; y] = [y]
  /\ ~ apart (fun _ => true) [x; y] /\ apart (fun v => match v with Some _ => true | None => false end) [Some 1; None; Some 2].
Proof.
  eexists _, _. cbn zeta. split; [apply e_run_valid, evalid_new|]. split; [vm_compute; reflexivity|].
  split; [vm_compute; reflexivity|]. split; [reflexivity|]. cbn. intuition discriminate.
Qed.

Print Assumptions c85_machine.
Print Assumptions c85_exact.
Print Assumptions c85_appended.
Print Assumptions c85_set.
Print Assumptions c85_removed.
Print Assumptions c85_left.
Print Assumptions c85_depends_refuted.
Print Assumptions c85_loop.
Print Assumptions c85_right.
