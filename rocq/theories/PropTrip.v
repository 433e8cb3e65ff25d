(** * C61: the getters after writing and reading back *)
From Coq Require Import Ascii String List NArith ZArith Bool.
From Verif Require Import GoStr GoNum GoFloat Heap Common ValueModel ArrayModel MapModel JsonModel ParserModel ReadModel
  SpecDict SpecNum SpecWorld World Reach SpecFloat SpecDoc SpecRender SpecRound SpecRead SpecTrip Inv TripFacts ExampleState ExampleJson.
Import ListNotations.

(** Writing a map and parsing the text gives a map with the same keys; every value that
    can be reached along a path from the first map can be reached along that path from the
    second, and reads back. *)
Theorem c61_trip : forall X h F m d b h',
  reachable X h -> escape_ok X -> rep_obj (x_typed_nil X) (view h) F (IMap m) d ->
  proper (x_is64 X) d -> writable d -> reachable X h' ->
  exists n s m' h2,
    (forall fuel, n <= fuel -> map_ToJSONString fuel X h m (Some b) = Ok (Some (b ++ s), []))
    /\ Parse X s h' = Ok (GVal (Some m'), h2)
    /\ same_keys h h2 m m'
    /\ forall k p v, go X h m (PKey k) p = Ok (GVal (Some v)) ->
         exists i v', w_val (view h) v = Some i /\ go X h2 m' (PKey k) p = Ok (GVal (Some v')) /\ reads_back X h v h2 v' i.
Proof. exact trip. Qed.

(** GetInt64 of a uint above MaxInt64 is the exception: it answers a negative number
    before, and reports an error after. *)
Definition uint_state : heap :=
  match run_calls [ANewMap; AMapSet 1 (lit "u") (IScal (SInt KUInt (2 ^ 64 - 1)))] [] with Ok (_, h) => h | _ => [] end.
Theorem c61_uint_refuted : exists h m d v s m' h2 v',
  reachable std_ext h /\ rep_obj true (view h) (fun _ => True) (IMap m) d /\ proper true d /\ writable d
  /\ go std_ext h m (PKey (lit "u")) [] = Ok (GVal (Some v))
  /\ map_ToJSONString 9 std_ext h m (Some []) = Ok (Some s, [])
  /\ Parse std_ext s h = Ok (GVal (Some m'), h2)
  /\ go std_ext h2 m' (PKey (lit "u")) [] = Ok (GVal (Some v'))
  /\ value_GetIntKind KInt64 std_ext h v = Ok (GVal (Some (-1)%Z))
  /\ value_GetIntKind KInt64 std_ext h2 v' = Ok (GErr [EGreater]).
Proof.
  exists uint_state, 1. eexists (DMap [(lit "u", DScal (SInt KUInt (2 ^ 64 - 1)))]), _, _, _, _, _.
  split.
  { assert (E : exists os, run_calls [ANewMap; AMapSet 1 (lit "u") (IScal (SInt KUInt (2 ^ 64 - 1)))] [] = Ok (os, uint_state))
      by (eexists; vm_compute; reflexivity).
    destruct E as [os E]. refine (MapFacts.reachable_run_calls _ _ [] os uint_state (R_start _) _ E).
    apply ok_callsb_ok. vm_compute. reflexivity. }
  split; [apply (doc_of_rep _ 9); vm_compute; reflexivity|].
  split; [apply properb_ok; vm_compute; reflexivity|].
  split; [apply writableb_ok; vm_compute; reflexivity|].
  do 5 (split; [vm_compute; reflexivity|]). vm_compute. reflexivity.
Qed.

Example c61_ex : reachable std_ext json_state /\ escape_ok std_ext
  /\ rep_obj (x_typed_nil std_ext) (view json_state) (fun _ => True) (IMap 1) json_doc
  /\ proper (x_is64 std_ext) json_doc /\ writable json_doc
  /\ exists v, go std_ext json_state 1 (PKey (lit "a")) [PIndex 0] = Ok (GVal (Some v)).
Proof.
  split; [apply json_reachable|]. split; [intros k; reflexivity|]. split; [apply json_rep|].
  split; [apply json_proper|]. split; [apply json_writable|eexists; vm_compute; reflexivity].
Qed.

Print Assumptions c61_trip.
Print Assumptions c61_uint_refuted.
