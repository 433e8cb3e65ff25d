(** * C63: the getters of a clone *)
From Coq Require Import Ascii String List NArith ZArith Bool.
From Verif Require Import GoStr GoNum GoFloat Heap Common ValueModel ArrayModel MapModel JsonModel ReadModel
  SpecWorld World Reach SpecDoc SpecClone SpecHistory SpecRead SpecTrip SpecRepeat CloneRead ExampleState ExampleClone PropClone.
Import ListNotations.

(** A cloned map has the same keys, a cloned array the same length.  Every value reached
    along a path from the original is reached along that path from the clone; one that
    holds nil, a scalar, a pointer to a scalar, a map or an array reads exactly the same. *)
Theorem c63_map : forall X n h m c h',
  reachable X h -> exists_in h KMap m -> clone n X KMap m h = Ok (GVal c, h') ->
  same_keys h h' m c
  /\ forall k p v, go X h m (PKey k) p = Ok (GVal (Some v)) ->
       exists i v', w_val (view h) v = Some i /\ go X h' c (PKey k) p = Ok (GVal (Some v'))
         /\ (ordinary i -> reads_same X h v h' v').
Proof. exact clone_map_reads. Qed.

Theorem c63_array : forall X n h a c h',
  reachable X h -> exists_in h KArr a -> clone n X KArr a h = Ok (GVal c, h') ->
  same_length h h' a c
  /\ forall j p v, go X h a (PIndex j) p = Ok (GVal (Some v)) ->
       exists i v', w_val (view h) v = Some i /\ go X h' c (PIndex j) p = Ok (GVal (Some v'))
         /\ (ordinary i -> reads_same X h v h' v').
Proof. exact clone_array_reads. Qed.

Theorem c63_value : forall X n h v i c h',
  reachable X h -> w_val (view h) v = Some i -> clone n X KVal v h = Ok (GVal c, h') -> ordinary i ->
  reads_same X h v h' c.
Proof. exact clone_value_reads. Qed.

(** The map of C34's example, at the second element of the array under "a", which is a
    pointer to a variable; the array; the value under "p". *)
Example c63_ex : reachable std_ext clone_state
  /\ exists_in clone_state KMap 1 /\ clone 9 std_ext KMap 1 clone_state = Ok (GVal 16, clone_after)
  /\ (exists v i, go std_ext clone_state 1 (PKey (lit "a")) [PIndex 1] = Ok (GVal (Some v))
        /\ w_val (view clone_state) v = Some i /\ ordinary i)
  /\ exists_in clone_state KArr 5 /\ (exists c h', clone 9 std_ext KArr 5 clone_state = Ok (GVal c, h'))
  /\ exists v, go std_ext clone_state 5 (PIndex 0) [] = Ok (GVal (Some v))
  /\ exists c h', clone 9 std_ext KVal 8 clone_state = Ok (GVal c, h').
Proof.
  split; [apply clone_reachable|]. split; [eexists; vm_compute; reflexivity|]. split; [vm_compute; reflexivity|].
  split; [eexists _, _; split; [vm_compute; reflexivity|split; [vm_compute; reflexivity|exact Logic.I]]|].
  split; [eexists; vm_compute; reflexivity|]. split; [eexists _, _; vm_compute; reflexivity|].
  eexists. split; [vm_compute; reflexivity|]. eexists _, _. vm_compute. reflexivity.
Qed.

Print Assumptions c63_map.
Print Assumptions c63_array.
Print Assumptions c63_value.
