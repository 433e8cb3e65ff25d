(** * Several goroutines calling methods of one array: C90 *)
From Coq Require Import Ascii String List NArith ZArith Bool.
From Verif Require Import GoStr GoNum GoFloat Heap Common ValueModel ArrayModel MapModel
  KeysSlice CellModel SpecCell CellFacts CellRace CellCalls CellTop ExampleState.
Import ListNotations.

(** An array of two elements with room for a third. *)
Definition c90_cell (b i : nat) : option loc := match b, i with 0, 0 => Some 7 | 0, 1 => Some 8 | _, _ => None end.
Definition c90_array := Store (Slice 0 2 3) c90_cell.
Definition c90_list : list (option loc) := [Some 7; Some 8].
Example c90_holds : holds c90_array c90_list.
Proof. split; [reflexivity|repeat constructor]. Qed.

(** CellModel.v describes the methods: a goroutine that runs alone gets the answer and leaves
    the elements that the method has in the model of ArrayModel.v. *)
Theorem c90_alone : forall h a l s c q,
  arr_GetValues h a = Ok l -> holds s l -> call_alone a c h = Some q ->
  exists s' h' n,
    solo_run n (do_call c) s = (Ret (reply_to s l c), s')
    /\ q = Ok (reply_to s l c, h')
    /\ arr_GetValues h' a = Ok (after l c) /\ holds s' (after l c).
Proof. exact alone_ok. Qed.

Example c90_alone_ex :
  arr_GetValues [CArr c90_list] 0 = Ok c90_list
  /\ call_alone 0 (CRemove 0 (Room 1 0)) [CArr c90_list] = Some (Ok (RErr None, [CArr [Some 8]]))
  /\ after c90_list (CRemove 0 (Room 1 0)) = [Some 8].
Proof. repeat split; reflexivity. Qed.

(** Whatever goroutines do, some schedule of them has a data race exactly when two of them,
    each run alone, access one variable and one of them writes it. *)
Theorem c90_race : forall (A : Type) (ts : list (act A)) s,
  (exists ns, racing (fst (schedule ns (ts, s)))) <->
  exists i j a b, i <> j /\ nth_error ts i = Some a /\ nth_error ts j = Some b /\ clash a b s.
Proof. exact @race_iff. Qed.

(** For calls the condition is in terms of the length and the capacity. *)
Theorem c90_calls : forall s l cs, holds s l ->
  ((exists ns, racing (fst (schedule ns (map do_call cs, s)))) <->
   exists i j c c', i <> j /\ nth_error cs i = Some c /\ nth_error cs j = Some c' /\ disturb (st_head s) c c' = true).
Proof. exact calls_race. Qed.

(** Two calls of SetValueAtIndex race exactly when they set one element that is there, and so
    do SetValueAtIndex and a read of one element. *)
Theorem c90_sets : forall x i j o o',
  (disturb x (CSet i o) (CSet j o') = true <-> i = j /\ within i (s_len x) = true)
  /\ (disturb x (CSet i o) (CElem j) = true <-> i = j /\ within i (s_len x) = true)
  /\ disturb x (CSet i o) CLen = false
  /\ disturb x (CSet i o) CAll = within i (s_len x)
  /\ disturb x (CSet i o) CText = within i (s_len x).
Proof. exact sets_table. Qed.

(** An append races with every call that looks at the array; calls with an index out of range
    race with nothing but calls that change the length; calls that write nothing never race. *)
Theorem c90_others : forall x,
  (forall o r c, match c with CKept _ => False | CSet n _ | CElem n | CRemove n _ => (0 <= n)%Z | _ => True end ->
     disturb x (CAppend o r) c = true)
  /\ (forall n o r c, within n (s_len x) = false ->
       (disturb x (CSet n o) c = true -> In VHead (writes x c)) /\ (disturb x (CRemove n r) c = true -> In VHead (writes x c)))
  /\ (forall c c', writes x c = [] -> writes x c' = [] -> disturb x c c' = false).
Proof. exact others_table. Qed.

(** A loop over a copy of the slice made earlier never races with an append, with room or
    without.  It races with a SetValueAtIndex of an element of the copy, and with a
    RemoveValueAtIndex that moves elements into it. *)
Theorem c90_kept : forall x y, s_base y = s_base x -> s_len y <= s_len x ->
  (forall o r, r_base r <> s_base x -> disturb x (CAppend o r) (CKept y) = false)
  /\ (forall n o, disturb x (CSet n o) (CKept y) = true <-> (0 <= n < Z.of_nat (s_len x))%Z /\ (n < Z.of_nat (s_len y))%Z)
  /\ (forall n r, disturb x (CRemove n r) (CKept y) = true <->
        (0 <= n < Z.of_nat (s_len x) - 1)%Z /\ (n < Z.of_nat (s_len y))%Z).
Proof. exact kept_table. Qed.

Example c90_pairs_ex :
  let x := Slice 0 2 3 in
  disturb x (CSet 0 None) (CSet 1 None) = false
  /\ disturb x (CSet 1 None) (CSet 1 None) = true
  /\ disturb x (CSet 2 None) (CSet 2 None) = false
  /\ disturb x (CAppend None (Room 1 4)) CLen = true
  /\ disturb x (CAppend None (Room 1 4)) (CKept x) = false
  /\ disturb x (CRemove 0 (Room 1 4)) (CKept (Slice 0 1 3)) = true
  /\ disturb x (CRemove 1 (Room 1 4)) (CKept x) = false
  /\ disturb x (CRemove 1 (Room 1 4)) CAll = true.
Proof. repeat split; reflexivity. Qed.

(** Any number of calls that do not disturb each other, in any schedule: none gets stuck, each
    gives the answer that it gives alone, and the array ends as if they had been made one
    after the other. *)
Theorem c90_apart : forall s l cs, holds s l ->
  (forall i j c c', i <> j -> nth_error cs i = Some c -> nth_error cs j = Some c' -> disturb (st_head s) c c' = false) ->
  forall ns,
    (exists ms, Forall over (fst (schedule (ns ++ ms) (map do_call cs, s))))
    /\ (Forall over (fst (schedule ns (map do_call cs, s))) ->
        fst (schedule ns (map do_call cs, s)) = map (fun c => Ret (reply_to s l c)) cs
        /\ holds (snd (schedule ns (map do_call cs, s))) (fold_left after cs l)).
Proof. exact calls_apart. Qed.

Example c90_apart_ex :
  let cs := [CSet 0 None; CSet 1 (Some 9); CLen; CCopy; CRemove 5 (Room 1 0)] in
  (forall i j c c', i <> j -> nth_error cs i = Some c -> nth_error cs j = Some c' -> disturb (st_head c90_array) c c' = false)
  /\ fold_left after cs c90_list = [None; Some 9]
  /\ map (reply_to c90_array c90_list) cs = [RErr None; RErr None; RLen 2; RSlice (Slice 0 2 3); RErr (Some EIndexRange)].
Proof.
  cbn zeta. split; [|split; reflexivity].
  intros [|[|[|[|[|[|i]]]]]] [|[|[|[|[|[|j]]]]]] c c' N E E'; cbn in E, E'; try congruence; injection E as <-; injection E' as <-; reflexivity.
Qed.

(** Goroutines that each have elements of their own, [owner] saying whose an element is, and
    that make any number of calls of SetValueAtIndex, of GetStringValue or GetMap at indexes
    of their own and of Len, each call depending on earlier answers.  No schedule has a data
    race, none gets stuck, each gets the answers that it gets alone, and in the end every
    element is what its owner alone would have left. *)
Theorem c90_owners : forall s l ws owner, holds s l ->
  (forall j w, nth_error ws j = Some w -> keeps_to (fun i => Nat.eqb (owner i) j) w) ->
  forall ns,
    ~ racing (fst (schedule ns (map work ws, s)))
    /\ (exists ms, Forall over (fst (schedule (ns ++ ms) (map work ws, s))))
    /\ (Forall over (fst (schedule ns (map work ws, s))) ->
        fst (schedule ns (map work ws, s)) = map (fun w => Ret (hears s w l)) ws
        /\ exists l', holds (snd (schedule ns (map work ws, s))) l' /\ length l' = length l
           /\ forall i, nth_error l' i = match nth_error ws (owner i) with
                                         | Some w => nth_error (leaves s w l) i
                                         | None => nth_error l i
                                         end).
Proof. exact owners_apart. Qed.

(** Two goroutines; the second copies what it reads at index 1 there again, unless it is nil. *)
Definition c90_first := Calls (CSet 0 (Some 3)) (fun _ => Calls CLen (fun _ => Calls (CElem 0) (fun _ => Stop))).
Definition c90_second := Calls (CElem 1) (fun r => match r with RElem (inr (Some v)) => Calls (CSet 1 (Some (S v))) (fun _ => Stop) | _ => Stop end).
Example c90_owners_ex :
  (forall j w, nth_error [c90_first; c90_second] j = Some w -> keeps_to (fun i => Nat.eqb i j) w)
  /\ leaves c90_array c90_first c90_list = [Some 3; Some 8]
  /\ leaves c90_array c90_second c90_list = [Some 7; Some 9]
  /\ hears c90_array c90_first c90_list = [RErr None; RLen 2; RElem (inr (Some 3))].
Proof.
  split; [|repeat split; reflexivity].
  intros [|[|j]] w E; [| |now destruct j].
  - injection E as <-. cbn. tauto.
  - injection E as <-. cbn. split; [auto|]. intros r. destruct r as [| | | |[e|[v|]]|]; cbn; auto.
Qed.

(** Calls that disturb each other: of two appends, one can be lost. *)
Theorem c90_append_refuted : forall s l o o' r r', holds s l -> r_base r <> s_base (st_head s) ->
  exists ns, let st := schedule ns (map do_call [CAppend o r; CAppend o' r'], s) in
    fst st = [Ret RDone; Ret RDone] /\ holds (snd st) (l ++ [o']).
Proof. exact lost_append. Qed.

(** And SetValueAtIndex, although it checks its index, can panic while an element is removed. *)
Theorem c90_set_refuted : forall s l o p n r, holds s (l ++ [o]) -> within n (S (length l)) = true ->
  exists ns, let st := schedule ns (map do_call [CSet (Z.of_nat (length l)) p; CRemove n r], s) in
    fst st = [Crash; Ret (RErr None)].
Proof. exact set_crashes. Qed.

Example c90_refuted_ex : holds c90_array ([Some 7] ++ [Some 8]) /\ within 0 2 = true /\ r_base (Room 1 4) <> s_base (st_head c90_array).
Proof. split; [exact c90_holds|]. split; [reflexivity|discriminate]. Qed.

Print Assumptions c90_alone.
Print Assumptions c90_race.
Print Assumptions c90_calls.
Print Assumptions c90_sets.
Print Assumptions c90_others.
Print Assumptions c90_kept.
Print Assumptions c90_apart.
Print Assumptions c90_owners.
Print Assumptions c90_append_refuted.
Print Assumptions c90_set_refuted.
