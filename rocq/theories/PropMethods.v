(** * C41: the declared methods *)
From Coq Require Import String List NArith ZArith Bool.
From Verif Require Import GoStr GoNum Heap Common ValueModel ArrayModel MapModel GetterModel MethodTable MethodFacts
  SpecWorld Reach ExampleState.
Import ListNotations.
Local Open Scope string_scope.

(** Not every declared method can be called: exactly these are never assigned. *)
Theorem c41_refuted :
  left_nil map_fields map_set = ["GetBoolValue"; "GetUIntValue"; "GetUInt"; "GetArrayOfInt"; "GetArrayOfUInt"]
  /\ left_nil array_fields array_set
     = ["GetArrayValue"; "GetArrayOfInt"; "GetArrayOfUInt"; "GetArrayOfIntValue"; "GetArrayOfUIntValue"]
  /\ left_nil value_fields value_set = ["GetUInt"; "GetUIntValue"].
Proof. repeat split; vm_compute; reflexivity. Qed.

(** Every other declared method is assigned, exactly once, and nothing else is. *)
Theorem c41_set : forall fields tbl,
  In (fields, tbl) [(map_fields, map_set); (array_fields, array_set); (value_fields, value_set)] ->
  NoDup (map fst tbl) /\ (forall n, In n (map fst tbl) -> In n (map fst fields))
  /\ (forall n, In n (map fst fields) -> In n (map fst tbl) \/ In n (left_nil fields tbl)).
Proof. exact methods_set. Qed.

(** The model agrees: its integer getters panic for exactly the type whose method is
    nil. *)
Theorem c41_model : forall kd X h m k,
  (set_in map_set ("Get" ++ int_name kd) = false <-> kd = KUInt)
  /\ (set_in map_set ("Get" ++ int_name kd ++ "Value") = false <-> kd = KUInt)
  /\ (kd = KUInt -> run_getter (GInt kd) X h m k = Panic /\ run_getter (GIntV kd) X h m k = Panic).
Proof. exact nil_int_getters. Qed.

Print Assumptions c41_refuted.
Print Assumptions c41_set.
Print Assumptions c41_model.
