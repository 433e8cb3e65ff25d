(** * Pointers in the lists returned by GetArrayOfT: C70 *)
From Coq Require Import Ascii String List NArith ZArith Bool Lia.
From Verif Require Import GoStr GoNum GoFloat Heap Common ValueModel ArrayModel MapModel GetterModel PtrModel PtrListModel
  SpecDict SpecWorld SpecNum SpecArray Inv World Reach MapFacts JsonModel ParserModel SpecFloat SpecDoc SpecText SpecToken SpecParse
  SpecPtr SpecPtrList PtrListFacts ExampleState.
Import ListNotations.
Local Open Scope nat_scope.

(** The pointers point to the scalars of C37, in order, nil for nil; the errors are those
    of C37; nothing that existed is changed. *)
Theorem c70_points : forall X t h a l,
  reachable X h -> w_arr (view h) a = Some l ->
  (forall cs, listed t X h a = Ok (GVal cs) -> exists ps h1, arr_ptrs t X a h = Ok (GVal ps, h1)
     /\ reachable X h1 /\ unchanged h h1 /\ Forall2 (points_to (view h1)) ps cs)
  /\ (forall e, listed t X h a = Ok (GErr e) -> exists h1, arr_ptrs t X a h = Ok (GErr e, h1) /\ reachable X h1 /\ unchanged h h1)
  /\ (listed t X h a = Panic -> arr_ptrs t X a h = Panic).
Proof. exact list_values. Qed.

(** Writing through the pointer at position [n]: if the element there holds a *string (for
    GetArrayOfString) or a *bool (for GetArrayOfBool), it is that very pointer and the
    element now holds the new value.  Otherwise nothing that existed changes.  The other
    pointers of the list keep their values. *)
Theorem c70_write : forall X t h a l ps h1 n p s,
  reachable X h -> w_arr (view h) a = Some l ->
  arr_ptrs t X a h = Ok (GVal ps, h1) -> nth_error ps n = Some (Some p) -> stype_of s = t ->
  exists v i h2, nth_error l n = Some (Some v) /\ w_val (view h) v = Some i
    /\ run_call (AVarSet p s) h1 = Ok (ODone, h2) /\ reachable X h2
    /\ (has_pointer t i -> i = IPtr t (Some p) /\ w_arr (view h2) a = Some l /\ elem_scalar (view h2) (Some v) = Some s)
    /\ (~ has_pointer t i -> new_in h p /\ unchanged h h2)
    /\ (forall n' q, nth_error ps n' = Some (Some q) -> q <> p -> w_var (view h2) q = w_var (view h1) q).
Proof. exact list_write. Qed.

(** Two positions have the same pointer only if both elements hold that pointer. *)
Theorem c70_apart : forall X t h a l ps h1 n n' p,
  reachable X h -> w_arr (view h) a = Some l ->
  arr_ptrs t X a h = Ok (GVal ps, h1) -> nth_error ps n = Some (Some p) -> nth_error ps n' = Some (Some p) -> n <> n' ->
  (t = TyStr \/ t = TyBool) /\ exists v v', nth_error l n = Some (Some v) /\ nth_error l n' = Some (Some v')
    /\ w_val (view h) v = Some (IPtr t (Some p)) /\ w_val (view h) v' = Some (IPtr t (Some p)).
Proof. exact list_apart. Qed.

(** The methods of Map hand out the list of the array under the key. *)
Theorem c70_map : forall X t h m k,
  t <> TyInt KInt /\ t <> TyInt KUInt -> reachable X h -> has (w_map (view h)) m ->
  (absent (view h) m k = true -> map_ptrs t X m k h = Ok (GVal None, h))
  /\ (forall a, SpecWorld.object_at (view h) m k = Some (IArr a) \/ SpecWorld.object_at (view h) m k = Some (IPArr (Some a)) ->
      forall r h1, arr_ptrs t X a h = Ok (r, h1) ->
      map_ptrs t X m k h = Ok (match r with GVal l => GVal (Some l) | GErr e => GErr e end, h1)).
Proof. exact map_list. Qed.

(** The list is not a copy: writing through it changes an array that was given a *string,
    here at the two positions that have it. *)
Definition twice : list api :=
  [ANewVar (SStr (lit "x")); ANewArray; AArrAppend 1 (IPtr TyStr (Some 0)); AArrAppend 1 (IScal (SStr (lit "y")));
   AArrAppend 1 INil; AArrAppend 1 (IPtr TyStr (Some 0)); ANewMap; AMapSet 7 (lit "k") (IArr 1)].
Definition twice_state : heap := match run_calls twice [] with Ok (_, h) => h | _ => [] end.
Theorem c70_copy_refuted : exists X h a ps h1 p h2,
  reachable X h /\ has (w_arr (view h)) a /\ arr_ptrs TyStr X a h = Ok (GVal ps, h1) /\ nth_error ps 0 = Some (Some p)
  /\ listed TyStr X h a = Ok (GVal (map (option_map SStr) [Some (lit "x"); Some (lit "y"); None; Some (lit "x")]))
  /\ run_call (AVarSet p (SStr (lit "z"))) h1 = Ok (ODone, h2)
  /\ listed TyStr X h2 a = Ok (GVal (map (option_map SStr) [Some (lit "z"); Some (lit "y"); None; Some (lit "z")])).
Proof.
  exists std_ext, twice_state, 1. do 4 eexists. split.
  { assert (E : exists os, run_calls twice [] = Ok (os, twice_state)) by (eexists; vm_compute; reflexivity).
    destruct E as [os E]. refine (reachable_run_calls _ twice [] os twice_state (R_start _) _ E).
    apply ok_callsb_ok. vm_compute. reflexivity. }
  split; [eexists; vm_compute; reflexivity|]. split; [vm_compute; reflexivity|]. split; [reflexivity|].
  split; [vm_compute; reflexivity|]. split; vm_compute; reflexivity.
Qed.

(** All the cases of [c70_points], [c70_write] and [c70_apart] occur. *)
Example c70_ex :
  (exists l, w_arr (view twice_state) 1 = Some l)
  /\ (exists h1, arr_ptrs TyStr std_ext 1 twice_state = Ok (GVal [Some 0; Some (length twice_state); None; Some 0], h1))
  /\ (exists h1 e, arr_ptrs TyBool std_ext 1 twice_state = Ok (GErr e, h1))
  /\ arr_ptrs (TyInt KInt) std_ext 1 twice_state = Panic
  /\ (exists h1, map_ptrs TyStr std_ext 7 (lit "k") twice_state = Ok (GVal (Some [Some 0; Some (length twice_state); None; Some 0]), h1))
  /\ absent (view twice_state) 7 (lit "q") = true.
Proof.
  split; [eexists; vm_compute; reflexivity|]. split; [eexists; vm_compute; reflexivity|].
  split; [do 2 eexists; vm_compute; reflexivity|]. split; [reflexivity|]. split; [eexists; vm_compute; reflexivity|vm_compute; reflexivity].
Qed.

Print Assumptions c70_points.
Print Assumptions c70_write.
Print Assumptions c70_apart.
Print Assumptions c70_map.
Print Assumptions c70_copy_refuted.
