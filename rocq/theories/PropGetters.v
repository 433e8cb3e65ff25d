(** * Properties of getters and predicates: C24-C29, C45, C46 *)
From Coq Require Import Ascii String List NArith ZArith Bool.
From Verif Require Import GoStr GoNum GoFloat Heap Common ValueModel ArrayModel MapModel GetterModel
  SpecDict SpecWorld SpecNum Inv World Reach MapFacts GetterLift GetterMore ObjFacts GetterProps ExampleState.
Import ListNotations.
Local Open Scope Z_scope.

(** ** C24 *)

(** The excluded types have their own statements: uint has no getter
    ([c24_uint_refuted]), float32 is re-read through text (C30). *)
Theorem c24_set_get : forall X h m k s c,
  reachable X h -> ok_call (view h) c ->
  (exists i, c = AMapSet m k i /\ scalar_of (view h) i = Some s) \/ c = AMapSetScalarValue m k s ->
  match s with
  | SInt KUInt _ | SFlt F32 _ => False
  | SInt k0 z => fits (x_is64 X) k0 z
  | _ => True
  end ->
  exists h', run_call c h = Ok (ODone, h') /\ reachable X h'
    /\ run_getter (getter_of (stype_of s)) X h' m k = Ok (answer_of s)
    /\ match value_getter_of (stype_of s) with
       | Some g => run_getter g X h' m k = Ok (value_answer_of s)
       | None => True
       end
    /\ forall g m2 k2, has (w_map (view h)) m2 -> (m2, k2) <> (m, k) ->
         run_getter g X h' m2 k2 = run_getter g X h m2 k2.
Proof. exact set_get. Qed.

Example c24_set_get_ex :
  reachable std_ext ex_state
  /\ ok_call (view ex_state) (AMapSet 1 (lit "n") (IPtr (TyInt KUInt8) (Some 2%nat)))
  /\ scalar_of (view ex_state) (IPtr (TyInt KUInt8) (Some 2%nat)) = Some (SInt KUInt8 200)
  /\ fits true KUInt8 200
  /\ ok_call (view ex_state) (AMapSetScalarValue 6 (lit "x") (SStr (lit "q"))).
Proof.
  split; [apply ex_reachable|]. split; [apply ok_callb_ok; vm_compute; reflexivity|].
  split; [vm_compute; reflexivity|]. split; [|apply ok_callb_ok; vm_compute; reflexivity].
  right. split; [unfold is_signed; intuition discriminate|]. cbn. split; discriminate.
Qed.

(** A stored uint cannot be read back by GetUInt: the method is never assigned. *)
Theorem c24_uint_refuted : exists X h m k z h',
  reachable X h /\ fits (x_is64 X) KUInt z
  /\ run_call (AMapSetScalarValue m k (SInt KUInt z)) h = Ok (ODone, h')
  /\ run_getter (GInt KUInt) X h' m k = Panic /\ run_getter (GIntV KUInt) X h' m k = Panic.
Proof.
  exists std_ext, ex_state, 1%nat, (lit "u"), 5. eexists.
  split; [apply ex_reachable|]. split.
  { right. split; [unfold is_signed; intuition discriminate|]. cbn. split; discriminate. }
  split; [vm_compute; reflexivity|]. split; vm_compute; reflexivity.
Qed.

(** ** C25, C26 *)

(** A stored integer of any type [k0], read by the getter for any type [kd]: the
    number itself when it fits, otherwise exactly one error and no number. *)
Theorem c25_c26_integer_getters : forall X h m k s,
  reachable X h -> has (w_map (view h)) m -> scalar_at (view h) m k = Some s ->
  forall k0 z kd, s = SInt k0 z -> fits (x_is64 X) k0 z -> kd <> KUInt ->
  (is_signed kd -> k0 = KUInt -> z <= 2 ^ 63 - 1) ->
  (fits (x_is64 X) kd z ->
     map_GetIntKind kd X h m k = Ok (GVal (Some z)) /\ map_GetIntKindValue kd X h m k = Ok (GVal z))
  /\ (~ fits (x_is64 X) kd z ->
      exists e, map_GetIntKind kd X h m k = Ok (GErr [e])
             /\ map_GetIntKindValue kd X h m k = Ok (GErr [e])).
Proof. exact map_int_exact. Qed.

Example c25_c26_ex :
  reachable std_ext ex_state /\ has (w_map (view ex_state)) 1%nat
  /\ scalar_at (view ex_state) 1 (lit "a") = Some (SInt KUInt8 200) /\ fits true KUInt8 200
  /\ fits true KUInt16 200 /\ ~ fits true KInt8 200.
Proof.
  split; [apply ex_reachable|]. split; [apply ex_map|]. split; [vm_compute; reflexivity|].
  assert (N : ~ is_signed KUInt8 /\ ~ is_signed KUInt16) by (unfold is_signed; split; intuition discriminate).
  split; [right; split; [apply N|cbn; split; discriminate]|].
  split; [right; split; [apply N|cbn; split; discriminate]|].
  intros [[_ [_ H]]|[H _]]; [vm_compute in H; now apply H|]. apply H. unfold is_signed. tauto.
Qed.

(** The excluded case is wrong in the code. *)
Theorem c25_uint_wraps_refuted : exists X h m k z,
  reachable X h /\ scalar_at (view h) m k = Some (SInt KUInt z) /\ fits (x_is64 X) KUInt z
  /\ map_GetIntKind KInt64 X h m k = Ok (GVal (Some (z - 2 ^ 64))) /\ z - 2 ^ 64 < 0.
Proof.
  exists std_ext, ex_state, 1%nat, (lit "f"), 18446744073709551615.
  split; [apply ex_reachable|]. split; [vm_compute; reflexivity|]. split.
  { right. split; [unfold is_signed; intuition discriminate|]. vm_compute. split; discriminate. }
  split; vm_compute; reflexivity.
Qed.

(** ** C27 *)
Theorem c27_signed_text : forall X h m k s,
  reachable X h -> has (w_map (view h)) m -> scalar_at (view h) m k = Some s ->
  forall t kd, s = SStr t -> is_signed kd ->
  (forall z, signed_numeral t z -> fits (x_is64 X) kd z ->
     map_GetIntKind kd X h m k = Ok (GVal (Some z)) /\ map_GetIntKindValue kd X h m k = Ok (GVal z))
  /\ ((forall z, signed_numeral t z -> ~ fits (x_is64 X) kd z) ->
      exists e, map_GetIntKind kd X h m k = Ok (GErr [e])
             /\ map_GetIntKindValue kd X h m k = Ok (GErr [e])).
Proof. exact map_int_text. Qed.

Theorem c27_unsigned_text : forall X h m k s,
  reachable X h -> has (w_map (view h)) m -> scalar_at (view h) m k = Some s ->
  forall t kd, s = SStr t -> ~ is_signed kd -> kd <> KUInt ->
  (t = lit "NULL" -> map_GetIntKind kd X h m k = Ok (GVal None)
                     /\ map_GetIntKindValue kd X h m k = Ok (GErr [ENilValue]))
  /\ (forall z, numeral t z -> fits (x_is64 X) kd z ->
     map_GetIntKind kd X h m k = Ok (GVal (Some z)) /\ map_GetIntKindValue kd X h m k = Ok (GVal z))
  /\ (t <> lit "NULL" -> (forall z, numeral t z -> ~ fits (x_is64 X) kd z) ->
      exists e, map_GetIntKind kd X h m k = Ok (GErr [e])
             /\ map_GetIntKindValue kd X h m k = Ok (GErr [e])).
Proof. exact map_uint_text. Qed.

Theorem c27_bool_text : forall X h m k s,
  reachable X h -> has (w_map (view h)) m -> scalar_at (view h) m k = Some s ->
  forall t, s = SStr t ->
  (t = lit "1" \/ t = lit "true" -> map_GetBool X h m k = Ok (GVal (Some true)))
  /\ (t = lit "0" \/ t = lit "false" -> map_GetBool X h m k = Ok (GVal (Some false)))
  /\ (~ In t [lit "1"; lit "true"; lit "0"; lit "false"] ->
      exists e, map_GetBool X h m k = Ok (GErr [e])).
Proof. exact map_bool_text. Qed.

Example c27_ex :
  reachable std_ext ex_state /\ has (w_map (view ex_state)) 1%nat
  /\ scalar_at (view ex_state) 1 (lit "b") = Some (SStr (lit "12"))
  /\ numeral (lit "12") 12 /\ signed_numeral (lit "12") 12
  /\ scalar_at (view ex_state) 1 (lit "j") = Some (SStr (lit "-129"))
  /\ signed_numeral (lit "-129") (-129).
Proof.
  assert (N : numeral (lit "12") 12).
  { split; [discriminate|]. split; [|vm_compute; reflexivity].
    repeat constructor; vm_compute; discriminate. }
  split; [apply ex_reachable|]. split; [apply ex_map|]. split; [vm_compute; reflexivity|].
  split; [exact N|]. split; [left; exact N|]. split; [vm_compute; reflexivity|].
  right. right. exists (lit "129"). split; [reflexivity|].
  split; [discriminate|]. split; [|vm_compute; reflexivity]. repeat constructor; vm_compute; discriminate.
Qed.

(** ** C28 *)
Theorem c28_absent : forall X h m k,
  reachable X h -> has (w_map (view h)) m ->
  map_IsNull h m k = Ok (absent (view h) m k)
  /\ (absent (view h) m k = true ->
      map_GetObject h m k = Ok INil
      /\ map_GetType X h m k = Ok TNil
      /\ (forall p, map_is p X h m k = Ok false)
      /\ (forall b, map_IsBoolVal b X h m k = Ok false)
      /\ map_IsEmptyString X h m k = Ok false
      /\ (forall kd, kd <> KUInt -> map_GetIntKind kd X h m k = Ok (GVal None)
                                    /\ exists e, map_GetIntKindValue kd X h m k = Ok (GErr [e]))
      /\ map_GetFloat32 X h m k = Ok (GVal None) /\ (exists e, map_GetFloat32Value X h m k = Ok (GErr [e]))
      /\ map_GetFloat64 X h m k = Ok (GVal None) /\ (exists e, map_GetFloat64Value X h m k = Ok (GErr [e]))
      /\ map_GetString X h m k = Ok (GVal None) /\ (exists e, map_GetStringValue X h m k = Ok (GErr [e]))
      /\ map_GetBool X h m k = Ok (GVal None)
      /\ map_GetMap X h m k = Ok (GVal None) /\ (exists e, map_GetMapValue X h m k = Ok (GErr [e]))
      /\ map_GetArray X h m k = Ok (GVal None) /\ (exists e, map_GetArrayValue X h m k = Ok (GErr [e]))
      /\ map_GetErrors X h m k = Ok (GVal []) /\ map_GetFunc X h m k = Ok (GVal None)).
Proof. exact absent_getters. Qed.

Example c28_ex :
  reachable std_ext ex_state /\ has (w_map (view ex_state)) 1%nat
  /\ absent (view ex_state) 1 (lit "e") = true /\ absent (view ex_state) 1 (lit "zz") = true
  /\ absent (view ex_state) 1 (lit "a") = false.
Proof. split; [apply ex_reachable|]. split; [apply ex_map|]. repeat split; vm_compute; reflexivity. Qed.

(** ** C29 *)

(** No getter below panics, whatever is stored. *)
Theorem c29_getters_total : forall X h m k i,
  reachable X h -> has (w_map (view h)) m -> object_at (view h) m k = Some i ->
  (nested i -> x_typed_nil X = true) -> ~ holds_no_error (view h) i ->
  (forall kd, kd <> KUInt -> (exists r, map_GetIntKind kd X h m k = Ok r)
                             /\ exists r, map_GetIntKindValue kd X h m k = Ok r)
  /\ (exists r, map_GetFloat32 X h m k = Ok r) /\ (exists r, map_GetFloat32Value X h m k = Ok r)
  /\ (exists r, map_GetFloat64 X h m k = Ok r) /\ (exists r, map_GetFloat64Value X h m k = Ok r)
  /\ (exists r, map_GetBool X h m k = Ok r)
  /\ (exists r, map_GetMap X h m k = Ok r) /\ (exists r, map_GetMapValue X h m k = Ok r)
  /\ (exists r, map_GetArray X h m k = Ok r) /\ (exists r, map_GetArrayValue X h m k = Ok r).
Proof. exact getters_total. Qed.

(** Applied to an object of another category they return one error.  GetString
    and GetStringValue panic instead. *)
Theorem c29_mismatch : forall X h m k i c,
  reachable X h -> has (w_map (view h)) m -> object_at (view h) m k = Some i ->
  cat_of (view h) i = Some c ->
  (c <> CatInt -> c <> CatStr ->
     forall kd, kd <> KUInt -> exists e, map_GetIntKind kd X h m k = Ok (GErr [e])
                                         /\ map_GetIntKindValue kd X h m k = Ok (GErr [e]))
  /\ (c <> CatInt -> c <> CatStr -> c <> CatFlt ->
      exists e, map_GetFloat32 X h m k = Ok (GErr [e]) /\ map_GetFloat32Value X h m k = Ok (GErr [e])
             /\ map_GetFloat64 X h m k = Ok (GErr [e]) /\ map_GetFloat64Value X h m k = Ok (GErr [e]))
  /\ (c <> CatBool -> c <> CatStr -> exists e, map_GetBool X h m k = Ok (GErr [e]))
  /\ (c <> CatMap -> exists e, map_GetMap X h m k = Ok (GErr [e]) /\ map_GetMapValue X h m k = Ok (GErr [e]))
  /\ (c <> CatArr -> exists e, map_GetArray X h m k = Ok (GErr [e]) /\ map_GetArrayValue X h m k = Ok (GErr [e]))
  /\ (c <> CatStr -> map_GetString X h m k = Panic /\ map_GetStringValue X h m k = Panic).
Proof. exact mismatch. Qed.

Example c29_ex :
  reachable std_ext ex_state /\ has (w_map (view ex_state)) 1%nat
  /\ object_at (view ex_state) 1 (lit "c") = Some (IPMap (Some 6%nat))
  /\ cat_of (view ex_state) (IPMap (Some 6%nat)) = Some CatMap
  /\ ~ nested (IPMap (Some 6%nat)) /\ ~ holds_no_error (view ex_state) (IPMap (Some 6%nat)).
Proof.
  split; [apply ex_reachable|]. split; [apply ex_map|]. split; [vm_compute; reflexivity|].
  split; [reflexivity|]. split; [intros (v & [H|H]) | intros (v & [H|H] & _)]; discriminate.
Qed.

(** GetString panics on a number. *)
Theorem c29_get_string_refuted : exists X h m k s,
  reachable X h /\ scalar_at (view h) m k = Some s /\ map_GetString X h m k = Panic.
Proof.
  exists std_ext, ex_state, 1%nat, (lit "a"), (SInt KUInt8 200).
  split; [apply ex_reachable|]. split; vm_compute; reflexivity.
Qed.

(** GetInt64 panics on a Value holding a pointer to a nil error. *)
Definition no_error_calls : list api :=
  [ANewMap; ANewValue (IPErr (Some NoError)); AMapSet 1 (lit "k") (IVal 2%nat)].
Definition no_error_state : heap := match run_calls no_error_calls [] with Ok (_, h) => h | _ => [] end.
Theorem c29_no_error_refuted : exists h m k i,
  (forall X, reachable X h) /\ object_at (view h) m k = Some i /\ holds_no_error (view h) i
  /\ map_GetIntKind KInt64 std_ext h m k = Panic.
Proof.
  exists no_error_state, 1%nat, (lit "k"), (IVal 2%nat). split.
  { intros X. assert (E : exists os, run_calls no_error_calls [] = Ok (os, no_error_state)) by (eexists; vm_compute; reflexivity).
    destruct E as [os E]. refine (reachable_run_calls _ no_error_calls [] os no_error_state (R_start _) _ E).
    apply ok_callsb_ok. vm_compute. reflexivity. }
  split; [vm_compute; reflexivity|]. split; [exists 2%nat; split; [now left|vm_compute; reflexivity]|vm_compute; reflexivity].
Qed.

(** ** C45 *)
Theorem c45_exclusive : forall X h m k s,
  reachable X h -> has (w_map (view h)) m -> scalar_at (view h) m k = Some s ->
  forall t, map_is (pred_of t) X h m k = Ok true <-> t = stype_of s.
Proof. exact predicates_exclusive. Qed.

Theorem c45_scalar : forall X h m k s,
  reachable X h -> has (w_map (view h)) m -> scalar_at (view h) m k = Some s ->
  (forall t, exists b, map_is (pred_of t) X h m k = Ok b /\ (b = true <-> t = stype_of s))
  /\ map_is common_IsMap X h m k = Ok false
  /\ map_is (common_IsArray X) X h m k = Ok false
  /\ (exists b, map_is common_IsInteger X h m k = Ok b /\ (b = true <-> exists kd, stype_of s = TyInt kd))
  /\ (exists b, map_is common_IsFloat X h m k = Ok b /\ (b = true <-> exists kd, stype_of s = TyFlt kd))
  /\ (exists b, map_is common_IsNumber X h m k = Ok b
        /\ (b = true <-> (exists kd, stype_of s = TyInt kd) \/ exists kd, stype_of s = TyFlt kd))
  /\ (map_GetType X h m k = Ok (TScal (stype_of s)) \/ map_GetType X h m k = Ok (TPtr (stype_of s))).
Proof. exact scalar_predicates. Qed.

Theorem c45_container : forall X h m k i,
  reachable X h -> has (w_map (view h)) m -> object_at (view h) m k = Some i ->
  (cat_of (view h) i = Some CatMap -> map_is common_IsMap X h m k = Ok true
                                      /\ map_is (common_IsArray X) X h m k = Ok false)
  /\ (cat_of (view h) i = Some CatArr -> map_is common_IsMap X h m k = Ok false
                                      /\ map_is (common_IsArray X) X h m k = Ok true)
  /\ (cat_of (view h) i = Some CatMap \/ cat_of (view h) i = Some CatArr ->
        (forall t, map_is (pred_of t) X h m k = Ok false)
        /\ map_is common_IsInteger X h m k = Ok false /\ map_is common_IsFloat X h m k = Ok false
        /\ map_is common_IsNumber X h m k = Ok false).
Proof. exact container_predicates. Qed.

Example c45_ex :
  reachable std_ext ex_state /\ has (w_map (view ex_state)) 1%nat
  /\ scalar_at (view ex_state) 1 (lit "a") = Some (SInt KUInt8 200)
  /\ object_at (view ex_state) 1 (lit "d") = Some (IArr 9%nat)
  /\ cat_of (view ex_state) (IArr 9%nat) = Some CatArr.
Proof. split; [apply ex_reachable|]. split; [apply ex_map|]. repeat split; vm_compute; reflexivity. Qed.

(** ** C46 *)
Theorem c46_text : forall X h i s,
  reachable X h -> ok_object (view h) i -> scalar_of (view h) i = Some s ->
  (forall t, s = SStr t -> conv_string X h i = Ok (GVal t))
  /\ (forall b, s = SBool b -> conv_string X h i = Ok (GVal (lit (if b then "true" else "false"))))
  /\ (forall k z, s = SInt k z -> fits (x_is64 X) k z ->
       exists t, conv_string X h i = Ok (GVal t) /\ signed_numeral t z
         /\ (0 <= z -> numeral t z /\ canonical t)
         /\ forall m key, has (w_map (view h)) m ->
            exists h', run_call (AMapSet m key (IScal (SStr t))) h = Ok (ODone, h')
              /\ (fits (x_is64 X) KInt64 z ->
                    map_GetIntKind KInt64 X h' m key = Ok (GVal (Some z))
                    /\ map_GetIntKindValue KInt64 X h' m key = Ok (GVal z))
              /\ (fits (x_is64 X) KUInt64 z ->
                    map_GetIntKind KUInt64 X h' m key = Ok (GVal (Some z))
                    /\ map_GetIntKindValue KUInt64 X h' m key = Ok (GVal z))).
Proof. exact text_conversion. Qed.

Example c46_ex :
  reachable std_ext ex_state /\ ok_object (view ex_state) (IPtr (TyInt KUInt8) (Some 2%nat))
  /\ scalar_of (view ex_state) (IPtr (TyInt KUInt8) (Some 2%nat)) = Some (SInt KUInt8 200).
Proof.
  split; [apply ex_reachable|]. split; [apply ok_objectb_ok|]; vm_compute; reflexivity.
Qed.

Print Assumptions c24_set_get.
Print Assumptions c24_uint_refuted.
Print Assumptions c25_c26_integer_getters.
Print Assumptions c25_uint_wraps_refuted.
Print Assumptions c27_signed_text.
Print Assumptions c27_unsigned_text.
Print Assumptions c27_bool_text.
Print Assumptions c28_absent.
Print Assumptions c29_getters_total.
Print Assumptions c29_mismatch.
Print Assumptions c29_get_string_refuted.
Print Assumptions c29_no_error_refuted.
Print Assumptions c45_exclusive.
Print Assumptions c45_scalar.
Print Assumptions c45_container.
Print Assumptions c46_text.
