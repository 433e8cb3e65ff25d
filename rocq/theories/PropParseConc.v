(** * Parse calls that run at the same time: C69 *)
From Coq Require Import Ascii String List NArith ZArith Bool.
From Verif Require Import GoStr GoNum GoFloat Heap Common ValueModel ArrayModel MapModel JsonModel ParserModel ParseConcModel
  SpecDict SpecWorld Inv World Reach SpecDoc SpecParse SpecParseConc ParseConcFacts ExampleState.
Import ListNotations.

(** The goroutines of ParseConcModel.v describe Parse: one that runs alone, for as
    many steps as its text has bytes and two more, ends as Parse does. *)
Theorem c69_alone : forall X s h n, (length s + 2 <= n)%nat ->
  run_alone X n (PStart s) h =
  match Parse X s h with
  | Ok (r, h') => Ok (PDone s r, h')
  | Panic => Panic | Stuck => Stuck | NoFuel => NoFuel
  end.
Proof. exact alone_parse. Qed.

(** Whatever ran before and in between (other Parse calls, at any point inside them,
    and other calls of the API), the step with which a Parse call returns gives what
    the call alone gives on that text: the same errors, or a map with the same
    document, made only of objects this call created and free of sharing. *)
Theorem c69_result : forall X h0 es C i t t' h' r,
  reachable X h0 -> runs X (conf0 h0) es C -> nth_error (c_ths C) i = Some t -> done t = false ->
  pstep X t (c_heap C) = Ok (t', h') -> t' = PDone (parsing t) r ->
  as_alone X (parsing t) r h' (fun l => mark (c_by C) i (c_heap C) h' l = Some i).
Proof. exact conc_result. Qed.

(** It panics only on texts that make Parse panic when nothing else runs, and nothing
    else goes wrong. *)
Theorem c69_panic : forall X h0 es C i t,
  reachable X h0 -> runs X (conf0 h0) es C -> nth_error (c_ths C) i = Some t ->
  (exists t' h', pstep X t (c_heap C) = Ok (t', h'))
  \/ pstep X t (c_heap C) = Panic /\ forall g, reachable X g -> Parse X (parsing t) g = Panic.
Proof. exact conc_panic. Qed.

(** A step of a Parse call changes only objects that call created: nothing that
    another goroutine can see, and nothing of another Parse call. *)
Theorem c69_apart : forall X h0 es C i t t' h',
  reachable X h0 -> runs X (conf0 h0) es C -> nth_error (c_ths C) i = Some t ->
  pstep X t (c_heap C) = Ok (t', h') ->
  reachable X h' /\ parsing t' = parsing t
  /\ forall l, (l < length (c_heap C))%nat -> c_by C l <> Some i -> same_object (c_heap C) h' l.
Proof. exact conc_apart. Qed.

(** No call waits for another: one that took as many steps as its text has bytes, and
    two more, has returned. *)
Theorem c69_progress : forall X h0 es C i t,
  reachable X h0 -> runs X (conf0 h0) es C -> nth_error (c_ths C) i = Some t ->
  done t = true \/ (steps_of i es + left t <= length (parsing t) + 2)%nat.
Proof. exact conc_progress. Qed.

(** Afterwards the result stays what it was until a call of the API changes one of its
    objects, whatever other Parse calls do. *)
Theorem c69_stays : forall X h0 es C i s r,
  reachable X h0 -> runs X (conf0 h0) es C -> nth_error (c_ths C) i = Some (PDone s r) ->
  (forall c l, In (EvCall c) es -> target c = Some l -> c_by C l <> Some i) ->
  as_alone X s r (c_heap C) (fun l => c_by C l = Some i).
Proof. exact conc_keeps. Qed.

(** Two calls that take turns at every byte, with a call on an existing map in
    between: the first returns, the second is about to return, the third (started
    meanwhile) panics at its last byte. *)
Definition ex_first : str := lit "{""a"":[1]}".
Definition ex_second : str := lit "{""a"":{""b"":2}}".
Definition ex_events : list event :=
  [EvGo ex_first; EvGo ex_second] ++ concat (repeat [EvStep 0; EvStep 1] 6)
  ++ [EvCall (AMapSetScalarValue 1 (lit "k") (SBool true)); EvGo (lit "{}}")]
  ++ concat (repeat [EvStep 1; EvStep 0] 5) ++ [EvStep 1; EvStep 1; EvStep 1; EvStep 2; EvStep 2; EvStep 2].

Example c69_ex : reachable std_ext ex_state
  /\ exists C, runs std_ext (conf0 ex_state) ex_events C
     /\ (exists m, nth_error (c_ths C) 0 = Some (PDone ex_first (GVal (Some m))))
     /\ (exists t t' h' m, nth_error (c_ths C) 1 = Some t /\ done t = false
           /\ pstep std_ext t (c_heap C) = Ok (t', h') /\ t' = PDone (parsing t) (GVal (Some m)))
     /\ (exists t, nth_error (c_ths C) 2 = Some t /\ pstep std_ext t (c_heap C) = Panic).
Proof.
  split; [apply ex_reachable|].
  assert (F : exists h ts, option_map (fun C => (c_heap C, c_ths C)) (exec std_ext ex_events (conf0 ex_state)) = Some (h, ts)
    /\ (exists m, nth_error ts 0 = Some (PDone ex_first (GVal (Some m))))
    /\ (exists t t' h' m, nth_error ts 1 = Some t /\ done t = false
          /\ pstep std_ext t h = Ok (t', h') /\ t' = PDone (parsing t) (GVal (Some m)))
    /\ (exists t, nth_error ts 2 = Some t /\ pstep std_ext t h = Panic)).
  { eexists _, _. split; [vm_compute; reflexivity|]. split; [eexists; reflexivity|]. split.
    - eexists _, _, _, _. split; [reflexivity|]. split; [reflexivity|]. split; vm_compute; reflexivity.
    - eexists. split; [reflexivity|vm_compute; reflexivity]. }
  destruct F as (h & ts & E & F). destruct (exec std_ext ex_events (conf0 ex_state)) as [C|] eqn:EC; [|discriminate].
  exists C. split; [exact (exec_runs std_ext ex_events _ [] _ C (r_nil _ _) EC)|].
  cbn [option_map] in E. injection E as -> ->. exact F.
Qed.

Print Assumptions c69_alone.
Print Assumptions c69_result.
Print Assumptions c69_panic.
Print Assumptions c69_apart.
Print Assumptions c69_progress.
Print Assumptions c69_stays.
