(** * C68: counting with a map *)
From Coq Require Import Ascii String List NArith ZArith Bool Lia.
From Verif Require Import GoStr GoNum GoFloat Heap Common ValueModel ArrayModel MapModel GetterModel PtrModel JsonModel ParserModel MetricsModel
  SpecDict SpecWorld World Reach MapFacts SpecNum SpecDoc SpecParse SpecMetrics MetricsFacts MetricsParse ExampleState.
Import ListNotations.

(** Counters kept in a map under the keys [ks]: reading one with GetInt, incrementing
    the variable it points to and storing the pointer with SetInt, any number of times and
    in any order, counts every key without error; no other key and no other map changes. *)
Theorem c68_counters : forall X m ks l h f,
  reachable X h -> has (w_map (view h)) m ->
  (forall k, In k ks -> run_getter (GInt KInt) X h m k = Ok (AnsIntP (GVal (Some (f k))))) ->
  Forall (fun ck => In (snd ck) ks) l ->
  (forall k, In k ks -> (int_min (x_is64 X) KInt <= f k /\ f k + Z.of_nat (times k (map snd l)) <= int_max (x_is64 X) KInt)%Z) ->
  exists h', bumps X m l h = Ok ([], h') /\ reachable X h'
    /\ (forall k, In k ks -> run_getter (GInt KInt) X h' m k = Ok (AnsIntP (GVal (Some (f k + Z.of_nat (times k (map snd l)))%Z))))
    /\ (forall m2, has (w_map (view h)) m2 -> has (w_map (view h')) m2)
    /\ forall g m2 k2, has (w_map (view h)) m2 -> m2 <> m \/ ~ In k2 (map snd l) -> run_getter g X h' m2 k2 = run_getter g X h m2 k2.
Proof. exact bumps_ok. Qed.

(** Parse keeps its counters in such a map; its results are those of [Parse], whose
    counters are numbers, for every text that is not longer than the largest int. *)
Theorem c68_metrics_map : forall X h s,
  reachable X h -> (Z.of_nat (length s) <= int_max (x_is64 X) KInt)%Z ->
  (Parse X s h = Panic /\ Parse_metrics X s h = Panic)
  \/ exists r, parses X h s r /\ gives X h (Parse_metrics X s h) r.
Proof. exact metrics_map. Qed.

Print Assumptions c68_counters.
Print Assumptions c68_metrics_map.

(** A map with the counters a and b at 5 and -1. *)
Definition count_calls : list api :=
  [ANewMap; AMapSetScalarValue 1 (lit "a") (SInt KInt 5); AMapSetScalarValue 1 (lit "b") (SInt KInt (-1))].
Definition count_state : heap := match run_calls count_calls [] with Ok (_, h) => h | _ => [] end.
Example c68_ex :
  reachable std_ext count_state /\ has (w_map (view count_state)) 1
  /\ run_getter (GInt KInt) std_ext count_state 1 (lit "a") = Ok (AnsIntP (GVal (Some 5%Z)))
  /\ run_getter (GInt KInt) std_ext count_state 1 (lit "b") = Ok (AnsIntP (GVal (Some (-1)%Z)))
  /\ times (lit "a") [lit "a"; lit "b"; lit "a"] = 2
  /\ (exists h', bumps std_ext 1 [(true, lit "a"); (false, lit "b"); (true, lit "a")] count_state = Ok ([], h')
        /\ run_getter (GInt KInt) std_ext h' 1 (lit "a") = Ok (AnsIntP (GVal (Some 7%Z)))
        /\ run_getter (GInt KInt) std_ext h' 1 (lit "b") = Ok (AnsIntP (GVal (Some 0%Z))))
  /\ (exists m h', Parse_metrics std_ext (lit "{""a"":[1,{""b"":""}""}]}") count_state = Ok (GVal (Some m), h')
        /\ run_getter (GInt KInt) std_ext h' 1 (lit "a") = Ok (AnsIntP (GVal (Some 5%Z))))
  /\ (exists h', Parse_metrics std_ext (lit "{""a"":[1,{""b"":2]}") count_state = Ok (GErr [EBrackets], h')).
Proof.
  split.
  { assert (E : exists os, run_calls count_calls [] = Ok (os, count_state)) by (eexists; vm_compute; reflexivity).
    destruct E as [os E]. refine (reachable_run_calls std_ext count_calls [] os count_state (R_start std_ext) _ E).
    apply ok_callsb_ok. vm_compute. reflexivity. }
  split; [eexists; vm_compute; reflexivity|]. split; [vm_compute; reflexivity|]. split; [vm_compute; reflexivity|]. split; [vm_compute; reflexivity|].
  split; [eexists; split; [vm_compute; reflexivity|]; split; vm_compute; reflexivity|].
  split; [eexists; eexists; split; [vm_compute; reflexivity|vm_compute; reflexivity]|].
  eexists. vm_compute. reflexivity.
Qed.
