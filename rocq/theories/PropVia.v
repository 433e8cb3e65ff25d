(** * Reading through a map and through the values it holds: C65 *)
From Coq Require Import Ascii String List NArith ZArith Bool Lia.
From Verif Require Import GoStr GoNum GoFloat Heap Common ValueModel ArrayModel MapModel GetterModel RunesModel TimeModel NamedModel
  SpecDict SpecWorld SpecNamed Inv World Reach MapFacts ViaFacts ExampleState.
Import ListNotations.
Local Open Scope nat_scope.

(** If GetValue(k) gives a Value, every getter the map and the Value have in common answers
    the same on m with k as on the Value: same results, same errors, same panics. *)
Theorem c65_here : forall X h m k v i,
  reachable X h -> map_GetValue h m k = Ok (Some v) -> w_val (view h) v = Some i ->
  nil_object i = false \/ i = INil \/ x_typed_nil X = true ->
  (forall n, In n shared_names -> map_get n X h m k = value_get n X h v)
  /\ map_GetRunes X h m k = value_GetRunes X h v
  /\ (forall L, map_GetTime L X h m k = value_GetTime L X h v)
  /\ (forall L p, map_GetTimeWithDecimalPlaces L p X h m k = value_GetTimeWithDecimalPlaces L p X h v).
Proof. exact reads_here. Qed.

(** If GetValue(k) gives nil, because the key is missing or holds a nil [*Value], they
    answer like a Value that holds nil. *)
Theorem c65_missing : forall X h m k v,
  reachable X h -> map_GetValue h m k = Ok None -> w_val (view h) v = Some INil ->
  (forall n, In n shared_names -> map_get n X h m k = value_get n X h v)
  /\ map_GetRunes X h m k = value_GetRunes X h v
  /\ (forall L, map_GetTime L X h m k = value_GetTime L X h v)
  /\ (forall L p, map_GetTimeWithDecimalPlaces L p X h m k = value_GetTimeWithDecimalPlaces L p X h v).
Proof. exact reads_missing. Qed.

(** The names are those of the methods that the code assigns for both. *)
Theorem c65_names : forall X n,
  In n shared_names <-> method (map_getters X) n <> None /\ method (value_getters X) n <> None.
Proof. exact shared_both. Qed.

(** The excluded case: a nil pointer that the type function does not call nil. *)
Definition via_ext : ext :=
  {| x_is64 := true; x_typed_nil := false; x_known := x_known std_ext; x_is_array := x_is_array std_ext;
     x_escape := x_escape std_ext; x_time := x_time std_ext; x_sprint := x_sprint std_ext; x_errorf := x_errorf std_ext |}.
Definition via_calls : list api :=
  [ANewMap; AMapSet 1 (lit "p") (IPtr (TyInt KInt8) None); AMapSet 1 (lit "n") INil; AMapSet 1 (lit "i") (IScal (SInt KInt16 300));
   AMapSetValue 1 (lit "v") None].
Definition via_state : heap := match run_calls via_calls [] with Ok (_, h) => h | _ => [] end.
Lemma via_reachable X : reachable X via_state.
Proof.
  assert (E : exists os, run_calls via_calls [] = Ok (os, via_state)) by (eexists; vm_compute; reflexivity).
  destruct E as [os E]. refine (reachable_run_calls _ via_calls [] os via_state (R_start _) _ E).
  apply ok_callsb_ok. vm_compute. reflexivity.
Qed.
Theorem c65_nil_pointer_refuted : exists X h m k v n,
  reachable X h /\ map_GetValue h m k = Ok (Some v) /\ In n shared_names
  /\ map_get n X h m k = Ok (AnsBool false) /\ value_get n X h v = Ok (AnsBool true).
Proof.
  exists via_ext, via_state, 1, (lit "p"), 2, "IsInt8"%string. split; [apply via_reachable|].
  split; [vm_compute; reflexivity|]. split; [unfold shared_names; cbn [In]; tauto|]. split; vm_compute; reflexivity.
Qed.

Example c65_ex :
  (forall X, reachable X via_state)
  /\ map_GetValue via_state 1 (lit "i") = Ok (Some 4) /\ w_val (view via_state) 4 = Some (IScal (SInt KInt16 300))
  /\ map_get "GetInt32" std_ext via_state 1 (lit "i") = Ok (AnsIntP (GVal (Some 300%Z)))
  /\ map_get "GetInt8" std_ext via_state 1 (lit "i") = Ok (AnsIntP (GErr [ERange]))
  /\ map_get "GetString" std_ext via_state 1 (lit "i") = Panic
  /\ map_GetValue via_state 1 (lit "v") = Ok None /\ map_GetValue via_state 1 (lit "zz") = Ok None
  /\ w_val (view via_state) 3 = Some INil
  /\ map_get "GetInt8Value" std_ext via_state 1 (lit "zz") = Ok (AnsInt (GErr [ENilValue])).
Proof. split; [apply via_reachable|]. repeat split; vm_compute; reflexivity. Qed.

Print Assumptions c65_here.
Print Assumptions c65_missing.
Print Assumptions c65_names.
Print Assumptions c65_nil_pointer_refuted.
