(** * Several goroutines setting keys of one map: C48 *)
From Coq Require Import Ascii String List NArith ZArith Bool Permutation.
From Verif Require Import GoStr GoNum GoFloat Heap Common ValueModel ArrayModel MapModel
  SpecDict SpecWorld Inv World Reach ConcModel SpecConc ConcFacts ExampleState.
Import ListNotations.

(** ConcModel.v describes the setter: a goroutine that runs alone changes the variables
    of the map exactly as SetValue does in the model of MapModel.v. *)
Theorem c48_alone : forall X h m d k o,
  reachable X h -> w_map (view h) m = Some d ->
  exists s s' h',
    shared_of h m = Some s /\ holds_dict s d
    /\ map_SetValue m k o h = Ok (tt, h')
    /\ run_sched (repeat 0 6) ([spawn (k, o)], s) = ([Thread k o CDone], s')
    /\ shared_of h' m = Some s' /\ holds_dict s' (dict_set d k o).
Proof. exact alone_ok. Qed.

Example c48_alone_ex : reachable std_ext ex_state /\ exists d, w_map (view ex_state) 1%nat = Some d.
Proof. split; [apply ex_reachable|eexists; vm_compute; reflexivity]. Qed.

(** Any number of goroutines that set keys one after the other, in any order, all
    finish, and the map holds what the same calls made by one goroutine in that order
    leave. *)
Theorem c48_serial : forall kvs order s d,
  holds_dict s d -> Permutation order (seq 0 (length kvs)) ->
  let st := run_sched (turns order) (map spawn kvs, s) in
  finished (fst st)
  /\ holds_dict (snd st) (fold_left (fun d n => match nth_error kvs n with
                                                | Some (k, v) => dict_set d k v
                                                | None => d end) order d).
Proof. exact turns_ok. Qed.

Example c48_serial_ex :
  holds_dict (Shared [(lit "a", None)] [lit "a"] [None]) [(lit "a", None)]
  /\ Permutation [1; 0; 2] (seq 0 (length [(lit "a", Some 4); (lit "b", None); (lit "a", Some 5)])).
Proof.
  split.
  - split; [reflexivity|]. split; [reflexivity|]. split; [repeat constructor; intros []|].
    intros k. reflexivity.
  - apply perm_swap.
Qed.

(** Without such a lock: two goroutines that set the same new key can leave it twice
    in the list of keys, whatever the map held. *)
Theorem c48_duplicate_refuted : forall s d k v1 v2,
  holds_dict s d -> dict_has d k = false ->
  exists ns, let st := run_sched ns (map spawn [(k, v1); (k, v2)], s) in
    finished (fst st) /\ c_keys (snd st) = dict_keys d ++ [k; k].
Proof. exact duplicate_key. Qed.

(** Two goroutines that set different new keys can lose one of them from the list of
    keys although lookups find it. *)
Theorem c48_lost_refuted : forall s d k1 k2 v1 v2,
  holds_dict s d -> dict_has d k1 = false -> dict_has d k2 = false -> k1 <> k2 ->
  exists ns, let st := run_sched ns (map spawn [(k1, v1); (k2, v2)], s) in
    finished (fst st) /\ c_keys (snd st) = dict_keys d ++ [k1]
    /\ tbl_get (c_tbl (snd st)) k2 = Some v2
    /\ length (c_vals (snd st)) = S (length (c_keys (snd st))).
Proof. exact lost_key. Qed.

Example c48_lost_ex :
  holds_dict (Shared [(lit "a", None)] [lit "a"] [None]) [(lit "a", None)]
  /\ dict_has [(lit "a", @None nat)] (lit "b") = false /\ dict_has [(lit "a", @None nat)] (lit "c") = false
  /\ lit "b" <> lit "c".
Proof.
  split; [|split; [reflexivity|split; [reflexivity|discriminate]]].
  split; [reflexivity|]. split; [reflexivity|]. split; [repeat constructor; intros []|]. intros k. reflexivity.
Qed.

(** Any two setters on the same map, for new or existing keys, equal or not, can reach
    the point where both write the Go map, on which the Go runtime may abort the
    program. *)
Theorem c48_race_refuted : forall s kv1 kv2,
  exists ns, race (fst (run_sched ns (map spawn [kv1; kv2], s))).
Proof. exact always_race. Qed.

Print Assumptions c48_alone.
Print Assumptions c48_serial.
Print Assumptions c48_duplicate_refuted.
Print Assumptions c48_lost_refuted.
Print Assumptions c48_race_refuted.
