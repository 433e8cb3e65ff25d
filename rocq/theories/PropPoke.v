(** * C91: programs that write into the slice behind GetValues *)
From Coq Require Import Ascii String List NArith ZArith Bool.
From Verif Require Import GoStr GoNum GoFloat Heap Common ValueModel ArrayModel MapModel SpecDict SpecWorld World Reach ExampleState
  KeysSlice ElemSlice SpecElems PokeModel SpecPoke PokeFacts LoopModel.
Import ListNotations.
Open Scope nat_scope.

(** Whatever has been written, the methods do to the elements of the array what they do to a list. *)
Theorem c91_methods : forall grow before D,
  p_run grow before p_new = Some D ->
  forall o, e_content (e_step grow o (d_array D)) = elem_step (d_content D) o.
Proof. exact methods_ok. Qed.

(** s[n] = x panics out of range, and else changes the elements [n] of exactly the slices that share the
    memory of s and reach that far, the one of the array among them. *)
Theorem c91_set : forall grow before D,
  p_run grow before p_new = Some D ->
  forall k n x s, nth_error (d_held D) k = Some s ->
  (s_len s <= n -> p_step grow (PSet k n x) D = None)
  /\ (n < s_len s -> exists D', p_step grow (PSet k n x) D = Some D' /\ d_held D' = d_held D /\ e_values (d_array D') = e_values (d_array D)
       /\ forall t, t = e_values (d_array D) \/ In t (d_held D) -> d_shows D' t = shown_set s t n x (d_shows D t)).
Proof. exact set_ok. Qed.

(** s = append(s, x) adds x to s, and while there is room behind s overwrites the element behind its end in
    every slice, the one of the array among them, that shares the memory and is longer. *)
Theorem c91_append : forall grow before D,
  p_run grow before p_new = Some D ->
  forall k x s, nth_error (d_held D) k = Some s ->
  exists D' s', p_step grow (PAppend k x) D = Some D' /\ d_held D' = upd (d_held D) k s' /\ e_values (d_array D') = e_values (d_array D)
    /\ d_shows D' s' = d_shows D s ++ [x]
    /\ forall t, t = e_values (d_array D) \/ In t (d_held D) ->
         d_shows D' t = if Nat.ltb (s_len s) (s_cap s) then shown_set s t (s_len s) x (d_shows D t) else d_shows D t.
Proof. exact append_ok. Qed.

(** s := *a.GetValues() shows the elements of the array, in its memory. *)
Theorem c91_copy : forall grow D,
  exists D', p_step grow PCopy D = Some D' /\ d_array D' = d_array D /\ d_held D' = d_held D ++ [e_values (d_array D)]
    /\ d_shows D' (e_values (d_array D)) = d_content D'.
Proof. exact copy_ok. Qed.

(** s = s[:n] panics beyond the capacity, keeps the first elements of s up to its length, and changes nothing else. *)
Theorem c91_cut : forall grow before D,
  p_run grow before p_new = Some D ->
  forall k n s, nth_error (d_held D) k = Some s ->
  (s_cap s < n -> p_step grow (PCut k n) D = None)
  /\ (n <= s_cap s -> exists D' s', p_step grow (PCut k n) D = Some D' /\ d_array D' = d_array D /\ d_held D' = upd (d_held D) k s'
       /\ s_base s' = s_base s /\ s_cap s' = s_cap s /\ length (d_shows D' s') = n
       /\ firstn (Nat.min n (s_len s)) (d_shows D' s') = firstn n (d_shows D s)).
Proof. exact cut_ok. Qed.

(** Assigning through the pointer makes the array hold the elements of the slice, in its memory. *)
Theorem c91_store : forall grow before D,
  p_run grow before p_new = Some D ->
  forall k s, nth_error (d_held D) k = Some s ->
  exists D', p_step grow (PStore k) D = Some D' /\ d_content D' = d_shows D s /\ d_held D' = d_held D
    /\ e_values (d_array D') = s /\ forall t, d_shows D' t = d_shows D t.
Proof. intros grow before D _. exact (store_ok grow D). Qed.

(** s := *a.GetValues(); a.AppendValue(y); s = append(s, x): while there is room, the array loses y and holds x. *)
Theorem c91_both : forall grow before D,
  p_run grow before p_new = Some D ->
  forall x y, exists D', p_run grow [PCopy; PCall (EAppend y); PAppend (length (d_held D)) x] D = Some D'
    /\ d_content D' = d_content D ++ [if Nat.ltb (s_len (e_values (d_array D))) (s_cap (e_values (d_array D))) then x else y].
Proof. exact both_append. Qed.

(** So what the array itself holds depends on capacities, which no method shows. *)
Theorem c91_depends_refuted : exists before ps (g1 g2 : vmem -> nat) D1 D2 D1' D2',
  p_run g1 before p_new = Some D1 /\ p_run g2 before p_new = Some D2 /\ d_content D1 = d_content D2
  /\ p_run g1 ps D1 = Some D1' /\ p_run g2 ps D2 = Some D2' /\ d_content D1' <> d_content D2'.
Proof. exact poke_depends. Qed.

(** A program that works on a slice of its own changes nothing in the array, and calls nothing in the slice. *)
Theorem c91_own : forall grow before D,
  p_run grow before p_new = Some D ->
  forall l ps D', Forall (own_stmt (length (d_held D))) ps -> p_run grow (PMake l :: ps) D = Some D' ->
  d_content D' = fold_left elem_step (calls_of ps) (d_content D)
  /\ exists s, nth_error (d_held D') (length (d_held D)) = Some s /\ d_shows D' s = fold_left own_step ps l.
Proof. exact own_ok. Qed.

(** Every state that such a program makes of an array is one that the methods reach too, so that what is
    proved about reachable states holds for it, and all later calls see it. *)
Theorem c91_heap : forall X h a grow ps D,
  reachable X h -> has (w_arr (view h)) a -> Forall (names (ok_value_handle (view h))) ps -> p_run grow ps p_new = Some D ->
  let h' := upd h a (CArr (d_content D)) in
  reachable X h' /\ run_call (AArrGetValues a) h' = Ok (OElems (d_content D), h')
  /\ forall cs, ok_calls cs (view h') -> exists os h'', run_calls cs h' = Ok (os, h'')
     /\ run_call (AArrGetValues a) h'' = Ok (OElems (e_content (e_run grow (elem_ops a cs (view h')) (d_array D))), h'').
Proof. exact heap_poke. Qed.

(** One program with all statements, with room for four elements, and with none to spare. *)
Definition poke_ex : list stmt :=
  [PCall (EAppend (Some 5)); PCall (EAppend None); PCopy; PCall (EAppend (Some 6)); PSet 0 1 (Some 7);
   PAppend 0 (Some 8); PMake [Some 1; Some 2]; PSet 1 0 (Some 3); PAppend 1 None].
Example c91_ex :
  let show g ps := match p_run (fun _ => g) ps p_new with Some D => Some (d_content D, map (d_shows D) (d_held D)) | None => None end in
  show 4 poke_ex = Some ([Some 5; Some 7; Some 8], [[Some 5; Some 7; Some 8]; [Some 3; Some 2; None]])
  /\ show 0 poke_ex = Some ([Some 5; None; Some 6], [[Some 5; Some 7; Some 8]; [Some 3; Some 2; None]])
  /\ show 4 (poke_ex ++ [PStore 1; PCut 0 1; PCut 0 4; PCall (ERemove 0)]) = Some ([Some 2; None], [[Some 5; Some 7; Some 8; None]; [Some 2; None; None]])
  /\ show 4 (poke_ex ++ [PSet 0 3 None]) = None /\ show 4 (poke_ex ++ [PCut 0 5]) = None.
Proof. cbn zeta. repeat split; vm_compute; reflexivity. Qed.
Example c91_both_ex : exists D,
  p_run (fun _ => 4) [PCall (EAppend (Some 5)); PCall (EAppend (Some 6))] p_new = Some D
  /\ Nat.ltb (s_len (e_values (d_array D))) (s_cap (e_values (d_array D))) = true /\ d_content D = [Some 5; Some 6].
Proof. eexists. split; [vm_compute; reflexivity|]. split; vm_compute; reflexivity. Qed.
Example c91_own_ex : exists D D',
  p_run (fun _ => 4) [PCall (EAppend (Some 5)); PCopy] p_new = Some D
  /\ Forall (own_stmt (length (d_held D))) [PSet 1 0 (Some 9); PCall (EAppend (Some 6)); PAppend 1 (Some 8); PCall (ERemove 0)]
  /\ p_run (fun _ => 4) [PMake [Some 5]; PSet 1 0 (Some 9); PCall (EAppend (Some 6)); PAppend 1 (Some 8); PCall (ERemove 0)] D = Some D'
  /\ d_content D' = [Some 6] /\ map (d_shows D') (d_held D') = [[Some 6]; [Some 9; Some 8]].
Proof.
  eexists _, _. split; [vm_compute; reflexivity|]. split; [cbn; repeat (apply Forall_cons; [exact Logic.I || reflexivity|]); apply Forall_nil|].
  split; [vm_compute; reflexivity|]. split; vm_compute; reflexivity.
Qed.
Example c91_heap_ex : exists D,
  let ps := [PCall (EAppend (Some 10)); PCopy; PAppend 0 (Some 11); PAppend 0 None; PStore 0] in
  reachable std_ext ex_state /\ has (w_arr (view ex_state)) 9 /\ Forall (names (ok_value_handle (view ex_state))) ps
  /\ p_run (fun _ => 4) ps p_new = Some D /\ d_content D = [Some 10; Some 11; None].
Proof.
  eexists. cbn zeta. split; [apply ex_reachable|]. split; [apply ex_arr|].
  split; [|split; [vm_compute; reflexivity|vm_compute; reflexivity]].
  assert (A : has (w_val (view ex_state)) 10) by (unfold has; destruct (w_val (view ex_state) 10) eqn:Q; [eauto|vm_compute in Q; discriminate]).
  assert (B : has (w_val (view ex_state)) 11) by (unfold has; destruct (w_val (view ex_state) 11) eqn:Q; [eauto|vm_compute in Q; discriminate]).
  apply Forall_cons; [exact A|]. apply Forall_cons; [exact Logic.I|]. apply Forall_cons; [exact B|]. apply Forall_cons; [exact Logic.I|]. apply Forall_cons; [exact Logic.I|]. apply Forall_nil.
Qed.

Print Assumptions c91_methods.
Print Assumptions c91_set.
Print Assumptions c91_append.
Print Assumptions c91_copy.
Print Assumptions c91_cut.
Print Assumptions c91_store.
Print Assumptions c91_both.
Print Assumptions c91_depends_refuted.
Print Assumptions c91_own.
Print Assumptions c91_heap.
