(** * Several goroutines calling methods of one map: C88 *)
From Coq Require Import Ascii String List NArith ZArith Bool.
From Verif Require Import GoStr GoNum GoFloat Heap Common ValueModel ArrayModel MapModel
  SpecDict SpecWorld Inv World Reach ConcModel SpecConc AccessModel SpecAccess AccessRace AccessCalls ExampleState.
Import ListNotations.

(** AccessModel.v describes the methods: a goroutine that runs alone gets the answer and
    leaves the variables that the method has in the model of MapModel.v. *)
Theorem c88_alone : forall X h m d c,
  reachable X h -> w_map (view h) m = Some d ->
  exists s s' h' n,
    shared_of h m = Some s /\ holds_dict s d
    /\ solo_run n (do_call c) s = (Ret (reply_to d c), s')
    /\ call_alone m c h = Ok (reply_to d c, h')
    /\ shared_of h' m = Some s' /\ holds_dict s' (after d c).
Proof. exact call_alone_ok. Qed.

Example c88_alone_ex : reachable std_ext ex_state /\ exists d, w_map (view ex_state) 1%nat = Some d /\ d <> [].
Proof. split; [apply ex_reachable|eexists; split; [vm_compute; reflexivity|discriminate]]. Qed.

(** Whatever goroutines do, some schedule of them has a data race exactly when two of them,
    each run alone, access one variable and one of them writes it. *)
Theorem c88_race : forall (A : Type) (ts : list (act A)) s,
  (exists ns, racing (fst (schedule ns (ts, s)))) <->
  exists i j a b, i <> j /\ nth_error ts i = Some a /\ nth_error ts j = Some b /\ clash a b s.
Proof. exact @race_iff. Qed.

(** For calls on a map with the content [d] the condition is in terms of the content.  A
    call that sets a key or removes one that is there races with most others, but not an
    update of a key that is there with GetKeys, and a call that removes a key that is not
    there is a read. *)
Theorem c88_calls : forall s d cs, holds_dict s d ->
  ((exists ns, racing (fst (schedule ns (map do_call cs, s)))) <->
   exists i j c c', i <> j /\ nth_error cs i = Some c /\ nth_error cs j = Some c' /\ disturb d c c' = true).
Proof. exact calls_race. Qed.

(** Any number of calls that do not disturb each other, in any schedule: none gets stuck,
    each gives the answer that it gives alone, and the map ends as if they had been made
    one after the other. *)
Theorem c88_apart : forall s d cs, holds_dict s d ->
  (forall i j c c', i <> j -> nth_error cs i = Some c -> nth_error cs j = Some c' -> disturb d c c' = false) ->
  forall ns,
    (exists ms, Forall over (fst (schedule (ns ++ ms) (map do_call cs, s))))
    /\ (Forall over (fst (schedule ns (map do_call cs, s))) ->
        fst (schedule ns (map do_call cs, s)) = map (fun c => Ret (reply_to d c)) cs
        /\ holds_dict (snd (schedule ns (map do_call cs, s))) (fold_left after cs d)).
Proof. exact calls_apart. Qed.

(** A map with the key "a". *)
Definition c88_map := Shared [(lit "a", Some 7)] [lit "a"] [Some 7].
Definition c88_dict : dict (option loc) := [(lit "a", Some 7)].
Example c88_holds : holds_dict c88_map c88_dict.
Proof.
  split; [reflexivity|]. split; [reflexivity|]. split; [repeat constructor; intros []|]. intros k. reflexivity.
Qed.
Example c88_apart_ex :
  (* an update, two calls of GetKeys *)
  let cs := [CSet (lit "a") None; CKeys; CKeys] in
  (forall i j c c', i <> j -> nth_error cs i = Some c -> nth_error cs j = Some c' -> disturb c88_dict c c' = false)
  /\ fold_left after cs c88_dict = [(lit "a", None)]
  (* what races *)
  /\ disturb c88_dict (CSet (lit "b") None) CKeys = true
  /\ disturb c88_dict (CSet (lit "a") None) (CHas (lit "b")) = true
  /\ disturb c88_dict (CSet (lit "a") None) CVals = true
  /\ disturb c88_dict (CSet (lit "a") None) CEntries = true
  /\ disturb c88_dict (CRemove (lit "b")) CEntries = false
  /\ disturb c88_dict (CRemove (lit "a")) CEntries = true
  /\ disturb c88_dict CVals CEntries = false.
Proof.
  cbn zeta. split; [|repeat split; reflexivity].
  intros [|[|[|[|i]]]] [|[|[|[|j]]]] c c' N E E'; cbn in E, E'; try congruence; injection E as <-; injection E' as <-; reflexivity.
Qed.

(** Any number of goroutines that only read, each making any number of calls that depend on
    earlier answers: no schedule has a data race or changes the map, none gets stuck, and
    each gets the answers that it gets alone. *)
Theorem c88_readers : forall s d ws, holds_dict s d -> Forall (only_reads d) ws ->
  forall ns,
    ~ racing (fst (schedule ns (map work ws, s)))
    /\ snd (schedule ns (map work ws, s)) = s
    /\ (exists ms, Forall over (fst (schedule (ns ++ ms) (map work ws, s))))
    /\ (Forall over (fst (schedule ns (map work ws, s))) ->
        fst (schedule ns (map work ws, s)) = map (fun w => Ret (hears d w)) ws).
Proof. exact readers_apart. Qed.

(** A goroutine that looks up each key it has been given, and one that writes the map. *)
Fixpoint look_up (ks : list str) : worker := match ks with [] => Stop | k :: ks => Calls (CGet k) (fun _ => look_up ks) end.
Example c88_readers_ex :
  let ws := [Calls CKeys (fun r => match r with RKeys ks => look_up ks | _ => Stop end);
             Calls (CRemove (lit "b")) (fun _ => Calls CEntries (fun _ => Stop))] in
  Forall (only_reads c88_dict) ws
  /\ map (hears c88_dict) ws = [[RKeys [lit "a"]; RValue (Some 7)];
                                [RRemoved (false, Some EKeyMap); REntries [(lit "a", Some 7)]]].
Proof. cbn zeta. split; [|reflexivity]. constructor; [|constructor; [|constructor]]; cbn; auto. Qed.

(** Calls that disturb each other can panic: two removals of the last key. *)
Theorem c88_removes_refuted : forall s d k o, holds_dict s (d ++ [(k, o)]) ->
  exists ns, nth_error (fst (schedule ns (map do_call [CRemove k; CRemove k], s))) 1 = Some Crash.
Proof. exact two_removes. Qed.

(** And they can show what was never there: a map written while a key is added has the key
    with the value null, whatever value is being added. *)
Theorem c88_torn_refuted : forall s d k v, holds_dict s d -> dict_has d k = false ->
  exists ns, nth_error (fst (schedule ns (map do_call [CSet k v; CEntries], s))) 1
             = Some (Ret (REntries (d ++ [(k, None)]))).
Proof. exact torn_read. Qed.

Example c88_refuted_ex : holds_dict c88_map ([] ++ [(lit "a", Some 7)]) /\ dict_has c88_dict (lit "b") = false.
Proof. split; [exact c88_holds|reflexivity]. Qed.

Print Assumptions c88_alone.
Print Assumptions c88_race.
Print Assumptions c88_calls.
Print Assumptions c88_apart.
Print Assumptions c88_readers.
Print Assumptions c88_removes_refuted.
Print Assumptions c88_torn_refuted.
