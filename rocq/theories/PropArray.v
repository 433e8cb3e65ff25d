(** * Properties of arrays read as a whole: C37 *)
From Coq Require Import Ascii String List NArith ZArith Bool.
From Verif Require Import GoStr GoNum GoFloat Heap Common ValueModel ArrayModel MapModel
  SpecDict SpecWorld SpecNum SpecArray Inv World Reach MapFacts ArrayGet ArrayMore ExampleState ExampleArray.
Import ListNotations.
Local Open Scope Z_scope.

(** ** C37 *)

(** Every GetArrayOfT answers all the elements in order, or the errors of all
    failing elements in order. *)
Theorem c37_pointwise : forall X h a l,
  reachable X h -> w_arr (view h) a = Some l ->
  (forall k rs, k <> KInt -> k <> KUInt -> Forall2 (own (value_GetIntKind k X h)) l rs ->
     exists r, arr_GetArrayOfIntKind k X h a = Ok r /\ collected rs r)
  /\ (forall k rs, k <> KInt -> k <> KUInt -> Forall2 (own_value (value_GetIntKindValue k X h)) l rs ->
     exists r, arr_GetArrayOfIntKindValue k X h a = Ok r /\ collected rs r)
  /\ (forall rs, Forall2 (own (value_GetFloat32 X h)) l rs ->
     exists r, arr_GetArrayOfFloat32 X h a = Ok r /\ collected rs r)
  /\ (forall rs, Forall2 (own (value_GetFloat64 X h)) l rs ->
     exists r, arr_GetArrayOfFloat64 X h a = Ok r /\ collected rs r)
  /\ (forall rs, Forall2 (own_value (value_GetFloat32Value X h)) l rs ->
     exists r, arr_GetArrayOfFloat32Value X h a = Ok r /\ collected rs r)
  /\ (forall rs, Forall2 (own_value (value_GetFloat64Value X h)) l rs ->
     exists r, arr_GetArrayOfFloat64Value X h a = Ok r /\ collected rs r)
  /\ (forall rs, Forall2 (own (value_GetBool_content X h)) l rs ->
     exists r, arr_GetArrayOfBool X h a = Ok r /\ collected rs r)
  /\ (forall rs, Forall2 (own_value (value_GetBoolValue X h)) l rs ->
     exists r, arr_GetArrayOfBoolValue X h a = Ok r /\ collected rs r)
  /\ (forall rs, Forall2 (own (value_GetString_content X h)) l rs ->
     exists r, arr_GetArrayOfString X h a = Ok r /\ collected rs r)
  /\ (forall rs, Forall2 (own_value (value_GetStringValue X h)) l rs ->
     exists r, arr_GetArrayOfStringValue X h a = Ok r /\ collected rs r).
Proof. exact array_pointwise. Qed.

(** Integers: each element is read as the integer it denotes. *)
Theorem c37_integers : forall X h a l k,
  reachable X h -> w_arr (view h) a = Some l -> k <> KInt -> k <> KUInt ->
  Forall (plain (view h)) l ->
  (forall o k0 z, In o l -> elem_scalar (view h) o = Some (SInt k0 z) ->
     fits (x_is64 X) k0 z /\ (is_signed k -> k0 = KUInt -> z <= 2 ^ 63 - 1)) ->
  exists ps rs r r', Forall2 (elem_as (view h) (null_int k) (reads_int (x_is64 X) k)) l ps
    /\ Forall2 required ps rs
    /\ arr_GetArrayOfIntKind k X h a = Ok r /\ collected ps r
    /\ arr_GetArrayOfIntKindValue k X h a = Ok r' /\ collected rs r'.
Proof. exact int_arrays. Qed.

Theorem c37_booleans : forall X h a l,
  reachable X h -> w_arr (view h) a = Some l -> Forall (plain (view h)) l ->
  exists ps rs r r', Forall2 (elem_as (view h) never reads_bool) l ps /\ Forall2 required ps rs
    /\ arr_GetArrayOfBool X h a = Ok r /\ collected ps r
    /\ arr_GetArrayOfBoolValue X h a = Ok r' /\ collected rs r'.
Proof. exact bool_arrays. Qed.

Theorem c37_strings : forall X h a l,
  reachable X h -> w_arr (view h) a = Some l -> Forall (text_elem (view h)) l ->
  exists xs rs r', Forall2 (elem_as (view h) never reads_str) l (map GVal xs) /\ Forall2 required (map GVal xs) rs
    /\ arr_GetArrayOfString X h a = Ok (GVal xs)
    /\ arr_GetArrayOfStringValue X h a = Ok r' /\ collected rs r'.
Proof. exact text_arrays. Qed.

(** One element that is not a string makes the string getters panic instead of
    reporting errors. *)
Theorem c37_strings_panic : forall X h a l v,
  reachable X h -> w_arr (view h) a = Some l -> Forall (plain (view h)) l ->
  In (Some v) l -> ~ text_elem (view h) (Some v) ->
  arr_GetArrayOfString X h a = Panic /\ arr_GetArrayOfStringValue X h a = Panic.
Proof. exact text_arrays_panic. Qed.

(** Map.GetArrayOfT(k) asks the array under [k]; a missing array is nil, or an
    error in the Value form. *)
Theorem c37_map : forall X h m k,
  reachable X h -> has (w_map (view h)) m ->
  (absent (view h) m k = true -> forall A (get : heap -> nat -> res (gres (list A))),
     map_array_of get X h m k = Ok (GVal None) /\ exists e, map_array_of_value get X h m k = Ok (GErr [e]))
  /\ (forall a, object_at (view h) m k = Some (IArr a) \/ object_at (view h) m k = Some (IPArr (Some a)) ->
      forall A (get : heap -> nat -> res (gres (list A))) r, get h a = Ok r ->
      map_array_of get X h m k = Ok (match r with GVal l => GVal (Some l) | GErr e => GErr e end)
      /\ map_array_of_value get X h m k = Ok r)
  /\ (forall i c, object_at (view h) m k = Some i -> cat_of (view h) i = Some c -> c <> CatArr ->
      forall A (get : heap -> nat -> res (gres (list A))), exists e,
        map_array_of get X h m k = Ok (GErr [e]) /\ map_array_of_value get X h m k = Ok (GErr [e])).
Proof. exact map_arrays. Qed.

(** Four of the declared methods are never assigned. *)
Theorem c37_unassigned_refuted : exists X h a l,
  reachable X h /\ w_arr (view h) a = Some l
  /\ (forall o, In o l -> exists z, elem_scalar (view h) o = Some (SInt KUInt8 z))
  /\ arr_GetArrayOfIntKind KInt X h a = Panic /\ arr_GetArrayOfIntKind KUInt X h a = Panic
  /\ arr_GetArrayOfIntKindValue KInt X h a = Panic /\ arr_GetArrayOfIntKindValue KUInt X h a = Panic.
Proof.
  exists std_ext, [CArr [Some 1%nat]; CVal (IScal (SInt KUInt8 200))], 0%nat, [Some 1%nat].
  split; [|split; [vm_compute; reflexivity|split; [|repeat split; vm_compute; reflexivity]]].
  - refine (reachable_run_calls std_ext [ANewArray; AArrAppend 0 (IScal (SInt KUInt8 200))] [] _ _ (R_start _) _ _);
      [apply ok_callsb_ok|]; vm_compute; reflexivity.
  - intros o [<-|[]]. eexists. vm_compute. reflexivity.
Qed.

(** 200, the text -17, nil, a pointer to 70000 and true, read as int32 and as uint8;
    5, nil and the text +7 read as int16; the text a and a nil object, read as strings. *)
Example c37_ex :
  reachable std_ext array_state
  /\ (exists l, w_arr (view array_state) 0%nat = Some l /\ Forall (plain (view array_state)) l
        /\ (forall k o k0 z, In o l -> elem_scalar (view array_state) o = Some (SInt k0 z) ->
              fits true k0 z /\ (is_signed k -> k0 = KUInt -> z <= 2 ^ 63 - 1))
        /\ In (Some 5%nat) l /\ ~ text_elem (view array_state) (Some 5%nat))
  /\ arr_GetArrayOfIntKind KInt32 std_ext array_state 0%nat = Ok (GErr [EType])
  /\ arr_GetArrayOfIntKind KUInt8 std_ext array_state 0%nat = Ok (GErr [EConv; ERange; EType])
  /\ arr_GetArrayOfIntKind KInt16 std_ext array_state 14%nat = Ok (GVal [Some 5; None; Some 7])
  /\ (exists l, w_arr (view array_state) 6%nat = Some l /\ Forall (text_elem (view array_state)) l)
  /\ arr_GetArrayOfString std_ext array_state 6%nat = Ok (GVal [Some (lit "a"); None])
  /\ has (w_map (view array_state)) 10%nat
  /\ object_at (view array_state) 10 (lit "n") = Some (IArr 0%nat)
  /\ absent (view array_state) 10 (lit "q") = true.
Proof.
  split; [apply array_reachable|]. split.
  { eexists. split; [vm_compute; reflexivity|]. split; [apply plainb_ok; vm_compute; reflexivity|].
    split; [apply intsb_ok; vm_compute; reflexivity|]. split; [cbn; auto 10|].
    intros (i & Hi & H). vm_compute in Hi. injection Hi as <-.
    destruct H as [H|[t H]]; vm_compute in H; discriminate H. }
  split; [vm_compute; reflexivity|]. split; [vm_compute; reflexivity|]. split; [vm_compute; reflexivity|]. split.
  { eexists. split; [vm_compute; reflexivity|]. apply textb_ok. vm_compute. reflexivity. }
  split; [vm_compute; reflexivity|]. split; [apply hasb_ok; vm_compute; reflexivity|].
  split; vm_compute; reflexivity.
Qed.

Print Assumptions c37_pointwise.
Print Assumptions c37_integers.
Print Assumptions c37_booleans.
Print Assumptions c37_strings.
Print Assumptions c37_strings_panic.
Print Assumptions c37_map.
Print Assumptions c37_unassigned_refuted.
