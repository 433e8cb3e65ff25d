(** * Properties of the float getters: C30, C31 *)
From Coq Require Import Ascii String List NArith ZArith Bool.
From Verif Require Import GoStr GoNum GoFloat Heap Common ValueModel ArrayModel MapModel GetterModel
  SpecDict SpecWorld SpecNum SpecFloat SpecToken SpecRender Inv World Reach FloatGet ExampleState ExampleJson.
Import ListNotations.
Local Open Scope Z_scope.

(** ** C30 *)

(** The set float32 [x] is read back exactly when it is the float32 nearest to
    [z / 10^6] for some [z]; every [x] with |x| >= 16 is. *)
Theorem c30_set_get : forall X h m k neg a b c,
  reachable X h -> ok_call (view h) c -> normal_form F32 a b ->
  (exists i, c = AMapSet m k i /\ SpecWorld.scalar_of (view h) i = Some (SFlt F32 (FFin neg a b)))
    \/ c = AMapSetScalarValue m k (SFlt F32 (FFin neg a b)) ->
  exists h', run_call c h = Ok (ODone, h') /\ reachable X h'
    /\ (map_GetFloat32 X h' m k = Ok (GVal (Some (FFin neg a b))) <-> exists z, 0 <= z /\ nearest F32 z (10 ^ 6) a b)
    /\ (map_GetFloat32Value X h' m k = Ok (GVal (FFin neg a b)) <-> exists z, 0 <= z /\ nearest F32 z (10 ^ 6) a b)
    /\ (16 * 2 ^ 1074 <= units a b ->
        map_GetFloat32 X h' m k = Ok (GVal (Some (FFin neg a b))) /\ map_GetFloat32Value X h' m k = Ok (GVal (FFin neg a b))).
Proof. exact set_get_float32. Qed.

(** Infinities and NaN are read back. *)
Theorem c30_special : forall X h m k f c,
  reachable X h -> ok_call (view h) c -> (forall neg a b, f <> FFin neg a b) ->
  (exists i, c = AMapSet m k i /\ SpecWorld.scalar_of (view h) i = Some (SFlt F32 f)) \/ c = AMapSetScalarValue m k (SFlt F32 f) ->
  exists h', run_call c h = Ok (ODone, h') /\ reachable X h'
    /\ map_GetFloat32 X h' m k = Ok (GVal (Some f)) /\ map_GetFloat32Value X h' m k = Ok (GVal f).
Proof. exact set_get_special. Qed.

(** In general the stored number is rounded to six digits, and that to a float32. *)
Theorem c30_read : forall X h m k s,
  reachable X h -> has (w_map (view h)) m -> scalar_at (view h) m k = Some s ->
  forall neg a b, s = SFlt F32 (FFin neg a b) -> normal_form F32 a b ->
  exists z a' b', nearest_integer (units a b * 10 ^ 6) (2 ^ 1074) z /\ 0 <= z /\ nearest F32 z (10 ^ 6) a' b'
    /\ map_GetFloat32 X h m k = Ok (GVal (Some (FFin neg a' b')))
    /\ map_GetFloat32Value X h m k = Ok (GVal (FFin neg a' b')).
Proof. exact map_float32_fin. Qed.

(** 2^-24 is read back as 0. *)
Theorem c30_refuted : exists X h m k a b h',
  reachable X h /\ normal_form F32 a b
  /\ run_call (AMapSetScalarValue m k (SFlt F32 (FFin false a b))) h = Ok (ODone, h')
  /\ map_GetFloat32 X h' m k <> Ok (GVal (Some (FFin false a b)))
  /\ exists e, map_GetFloat32 X h' m k = Ok (GVal (Some (FFin false 0 e))).
Proof.
  exists std_ext, ex_state, 1%nat, (lit "f"), 8388608, (-47). eexists.
  split; [apply ex_reachable|]. split; [apply normalb_ok; vm_compute; reflexivity|].
  split; [vm_compute; reflexivity|]. split; [vm_compute; discriminate|]. eexists. vm_compute. reflexivity.
Qed.

(** 3.75 and 20. *)
Example c30_ex : reachable std_ext ex_state
  /\ ok_call (view ex_state) (AMapSetScalarValue 1 (lit "x") (SFlt F32 (FFin true 15728640 (-22))))
  /\ normal_form F32 15728640 (-22) /\ normal_form F32 10485760 (-19) /\ 16 * 2 ^ 1074 <= units 10485760 (-19)
  /\ exists h', run_call (AMapSetScalarValue 1 (lit "x") (SFlt F32 (FFin true 15728640 (-22)))) ex_state = Ok (ODone, h')
       /\ map_GetFloat32 std_ext h' 1 (lit "x") = Ok (GVal (Some (FFin true 15728640 (-22)))).
Proof.
  split; [apply ex_reachable|]. split; [apply ok_callb_ok; vm_compute; reflexivity|].
  split; [apply normalb_ok; vm_compute; reflexivity|]. split; [apply normalb_ok; vm_compute; reflexivity|].
  split; [unfold Z.le; vm_compute; discriminate|]. eexists. split; [vm_compute; reflexivity|vm_compute; reflexivity].
Qed.

(** ** C31 *)

Theorem c31_integers : forall X h m k s,
  reachable X h -> has (w_map (view h)) m -> scalar_at (view h) m k = Some s ->
  forall k0 z, s = SInt k0 z -> fits (x_is64 X) k0 z ->
  exists a b, rounds_to F64 (z <? 0) (Z.abs z) 1 (Some (FFin (z <? 0) a b))
    /\ map_GetFloat64 X h m k = Ok (GVal (Some (FFin (z <? 0) a b)))
    /\ map_GetFloat64Value X h m k = Ok (GVal (FFin (z <? 0) a b))
    /\ (Z.abs z <= 2 ^ 53 -> units a b = Z.abs z * 2 ^ 1074).
Proof. exact map_float64_int. Qed.

Theorem c31_float32 : forall X h m k s,
  reachable X h -> has (w_map (view h)) m -> scalar_at (view h) m k = Some s ->
  forall neg a b, s = SFlt F32 (FFin neg a b) -> normal_form F32 a b ->
  exists a' b', map_GetFloat64 X h m k = Ok (GVal (Some (FFin neg a' b')))
    /\ map_GetFloat64Value X h m k = Ok (GVal (FFin neg a' b'))
    /\ normal_form F64 a' b' /\ units a' b' = units a b.
Proof. exact map_float64_f32. Qed.

(** A string holding a decimal number is read as the nearest float64. *)
Theorem c31_decimal_strings : forall X h m k s,
  reachable X h -> has (w_map (view h)) m -> scalar_at (view h) m k = Some s ->
  forall neg u n d f, s = SStr (sign neg ++ u) -> fraction u n d -> rounds_to F64 neg n d f ->
  map_GetFloat64 X h m k = Ok (match f with Some g => GVal (Some g) | None => GErr [EConv] end)
  /\ map_GetFloat64Value X h m k = Ok (match f with Some g => GVal g | None => GErr [EConv] end).
Proof. exact map_float64_text. Qed.

(** -70000 and 1.5 in the example map. *)
Example c31_ex : reachable std_ext json_state /\ has (w_map (view json_state)) 1
  /\ (exists k0, scalar_at (view json_state) 1 (lit "n") = Some (SInt k0 (-70000)) /\ fits true k0 (-70000))
  /\ exists h', run_call (AMapSetScalarValue 1 (lit "x") (SStr (lit "-1.5"))) json_state = Ok (ODone, h')
       /\ scalar_at (view h') 1 (lit "x") = Some (SStr (sign true ++ lit "1.5"))
       /\ map_GetFloat64Value std_ext h' 1 (lit "x") = Ok (GVal (FFin true 6755399441055744 (-52))).
Proof.
  split; [apply json_reachable|]. split; [apply hasb_ok; vm_compute; reflexivity|].
  split; [eexists; split; [vm_compute; reflexivity|apply fitsb_ok; vm_compute; reflexivity]|].
  eexists. split; [vm_compute; reflexivity|]. split; vm_compute; reflexivity.
Qed.

Print Assumptions c30_set_get.
Print Assumptions c30_special.
Print Assumptions c30_read.
Print Assumptions c30_refuted.
Print Assumptions c31_integers.
Print Assumptions c31_float32.
Print Assumptions c31_decimal_strings.
