(** * C57: the pointers returned by getters *)
From Coq Require Import Ascii String List NArith ZArith Bool.
From Verif Require Import GoStr GoNum GoFloat Heap Common ValueModel ArrayModel MapModel GetterModel PtrModel JsonModel ParserModel
  SpecDict SpecWorld SpecNum Inv World Reach SpecFloat SpecDoc SpecText SpecToken SpecParse SpecPtr PtrFacts ExampleState.
Import ListNotations.

(** The pointer GetT returns points to a variable of type T with the value the getter
    answers; getting it changes nothing. *)
Theorem c57_points : forall X t h m k p h1,
  reachable X h -> has (w_map (view h)) m -> map_ptr t X m k h = Ok (GVal (Some p), h1) ->
  exists s, w_var (view h1) p = Some s /\ stype_of s = t /\ run_getter (getter_of t) X h m k = Ok (answer_of s).
Proof. exact map_points. Qed.

(** Writing through it: when the stored object is a *string (for GetString) or a *bool
    (for GetBool), it is that very pointer and the map now answers the new value.
    Otherwise, in particular for all numbers, the pointer is new and nothing that
    existed changes. *)
Theorem c57_write : forall X t h m k p h1 s,
  reachable X h -> has (w_map (view h)) m ->
  map_ptr t X m k h = Ok (GVal (Some p), h1) -> stype_of s = t ->
  reachable X h1 /\ unchanged h h1
  /\ exists i h2, SpecWorld.object_at (view h) m k = Some i
    /\ run_call (AVarSet p s) h1 = Ok (ODone, h2) /\ reachable X h2
    /\ (has_pointer t i -> i = IPtr t (Some p) /\ run_getter (getter_of t) X h2 m k = Ok (answer_of s))
    /\ (~ has_pointer t i -> new_in h p /\ unchanged h h2).
Proof. exact map_write. Qed.

(** There is a pointer whenever the getter answers a value. *)
Theorem c57_exists : forall X h m k s,
  reachable X h -> has (w_map (view h)) m -> run_getter (getter_of (stype_of s)) X h m k = Ok (answer_of s) ->
  exists p h1, map_ptr (stype_of s) X m k h = Ok (GVal (Some p), h1).
Proof. exact map_ptr_back. Qed.

(** So the caller cannot be given the result of GetString or GetBool without being able
    to change the map, even one that was given a plain value: m.SetStringValue(k, s);
    p, _ := m.GetString(k); *p = u makes m.GetString(k) return u. *)
Theorem c57_copy_refuted : forall X h m k s u,
  reachable X h -> has (w_map (view h)) m ->
  stype_of s = TyStr \/ stype_of s = TyBool -> stype_of u = stype_of s ->
  exists h0 p h1 h2, run_call (AMapSetScalarValue m k s) h = Ok (ODone, h0)
    /\ map_ptr (stype_of s) X m k h0 = Ok (GVal (Some p), h1)
    /\ run_call (AVarSet p u) h1 = Ok (ODone, h2)
    /\ run_getter (getter_of (stype_of s)) X h2 m k = Ok (answer_of u).
Proof. exact set_live. Qed.

(** The same of a parsed map. *)
Theorem c57_parsed_refuted : exists X h m p h1 h2,
  Parse X (lit "{""a"":""x""}") [] = Ok (GVal (Some m), h)
  /\ map_ptr TyStr X m (lit "a") h = Ok (GVal (Some p), h1)
  /\ run_call (AVarSet p (SStr (lit "y"))) h1 = Ok (ODone, h2)
  /\ run_getter GString X h2 m (lit "a") = Ok (AnsStrP (GVal (Some (lit "y")))).
Proof.
  exists std_ext. do 5 eexists. split; [vm_compute; reflexivity|]. split; [vm_compute; reflexivity|].
  split; vm_compute; reflexivity.
Qed.

(** All cases of [c57_write] occur: GetUInt8 at a *uint8, GetString at a string, GetBool
    at a bool. *)
Example c57_ex :
  reachable std_ext ex_state /\ has (w_map (view ex_state)) 1
  /\ (exists h1, map_ptr (TyInt KUInt8) std_ext 1 (lit "a") ex_state = Ok (GVal (Some (length ex_state)), h1))
  /\ (exists h1, map_ptr TyStr std_ext 1 (lit "b") ex_state = Ok (GVal (Some (length ex_state)), h1))
  /\ (exists h1, map_ptr TyBool std_ext 6 (lit "x") ex_state = Ok (GVal (Some (length ex_state)), h1)).
Proof.
  split; [apply ex_reachable|]. split; [apply ex_map|].
  repeat split; eexists; vm_compute; reflexivity.
Qed.

Print Assumptions c57_points.
Print Assumptions c57_write.
Print Assumptions c57_exists.
Print Assumptions c57_copy_refuted.
Print Assumptions c57_parsed_refuted.
