(** * The calls of programs and the methods they stand for *)
From Coq Require Import Ascii String List NArith ZArith Bool.
From Verif Require Import GoStr GoNum GoFloat Heap Common ValueModel ArrayModel MapModel JsonModel ParserModel
  GetterModel NamedModel MethodTable SpecWorld ClientModel.
Import ListNotations.
Local Open Scope string_scope.
Local Open Scope N_scope.

(** The receiver and the arguments of a method; each method uses some of them.  a_text is a
    builder with its content, or the other string of a comparison. *)
Record args := { a_self : nat; a_key : str; a_arg : iface; a_value : option nat; a_int : Z; a_text : option str; a_fuel : nat }.
Definition calls := table (args -> request).
Definition calls_of {A} (f : A -> args -> request) (t : table A) : calls := map (fun e => (fst e, f (snd e))) t.

(** The methods of Map, Map.go:437-1110.  A getter that returns a pointer is two calls: one
    shows what the pointer refers to, the other gives the pointer. *)
Definition map_calls (X : ext) : calls :=
  (calls_of (fun e x => QApi (map_set_call e (a_self x) (a_key x) (a_arg x))) map_setters
   ++ calls_of (fun g x => QMap g (a_self x) (a_key x)) (map_getters X)
   ++ [ ("IsNil", 457, fun x => QMapIsNil (a_self x));
    ("ToJSONString", 572, fun x => QMapText (a_fuel x) (a_self x) (a_text x));
    ("GetKeys", 575, fun x => QApi (AMapGetKeys (a_self x)));
    ("GetArrayOfInt8", 618, fun x => QMapPtrs (TyInt KInt8) (a_self x) (a_key x));
    ("GetArrayOfInt16", 627, fun x => QMapPtrs (TyInt KInt16) (a_self x) (a_key x));
    ("GetArrayOfInt32", 636, fun x => QMapPtrs (TyInt KInt32) (a_self x) (a_key x));
    ("GetArrayOfInt64", 645, fun x => QMapPtrs (TyInt KInt64) (a_self x) (a_key x));
    ("GetArrayOfUInt8", 654, fun x => QMapPtrs (TyInt KUInt8) (a_self x) (a_key x));
    ("GetArrayOfUInt16", 663, fun x => QMapPtrs (TyInt KUInt16) (a_self x) (a_key x));
    ("GetArrayOfUInt32", 672, fun x => QMapPtrs (TyInt KUInt32) (a_self x) (a_key x));
    ("GetArrayOfUInt64", 681, fun x => QMapPtrs (TyInt KUInt64) (a_self x) (a_key x));
    ("GetArrayOfFloat32", 690, fun x => QMapPtrs (TyFlt F32) (a_self x) (a_key x));
    ("GetArrayOfFloat32Value", 699, fun x => QMapVals MFloat32 (a_self x) (a_key x));
    ("GetArrayOfFloat64", 706, fun x => QMapPtrs (TyFlt F64) (a_self x) (a_key x));
    ("GetArrayOfFloat64Value", 715, fun x => QMapVals MFloat64 (a_self x) (a_key x));
    ("GetArrayOfString", 722, fun x => QMapPtrs (TyStr) (a_self x) (a_key x));
    ("GetArrayOfBool", 731, fun x => QMapPtrs (TyBool) (a_self x) (a_key x));
    ("GetArrayOfBoolValue", 740, fun x => QMapVals MBool (a_self x) (a_key x));
    ("GetRunes", 809, fun x => QMapRunes (a_self x) (a_key x));
    ("RemoveKey", 854, fun x => QApi (AMapRemoveKey (a_self x) (a_key x)));
    ("GetTime", 1090, fun x => QMapTime None (a_self x) (a_key x));
    ("GetTimeWithDecimalPlaces", 1096, fun x => QMapTime (Some (a_int x)) (a_self x) (a_key x));
    ("Values", 1102, fun x => QValues (a_self x));
    ("Clone", 1105, fun x => QClone (a_fuel x) KMap (a_self x));
    ("SetValue", 1108, fun x => QApi (AMapSetValue (a_self x) (a_key x) (a_value x)));
    ("GetString", 749, fun x => QMapPtr (TyStr) (a_self x) (a_key x));
    ("GetFloat32", 781, fun x => QMapPtr (TyFlt F32) (a_self x) (a_key x));
    ("GetFloat64", 803, fun x => QMapPtr (TyFlt F64) (a_self x) (a_key x));
    ("GetBool", 825, fun x => QMapPtr (TyBool) (a_self x) (a_key x));
    ("GetInt64", 863, fun x => QMapPtr (TyInt KInt64) (a_self x) (a_key x));
    ("GetInt8", 869, fun x => QMapPtr (TyInt KInt8) (a_self x) (a_key x));
    ("GetUInt8", 883, fun x => QMapPtr (TyInt KUInt8) (a_self x) (a_key x));
    ("GetInt16", 897, fun x => QMapPtr (TyInt KInt16) (a_self x) (a_key x));
    ("GetUInt16", 911, fun x => QMapPtr (TyInt KUInt16) (a_self x) (a_key x));
    ("GetInt32", 925, fun x => QMapPtr (TyInt KInt32) (a_self x) (a_key x));
    ("GetUInt32", 947, fun x => QMapPtr (TyInt KUInt32) (a_self x) (a_key x));
    ("GetInt", 969, fun x => QMapPtr (TyInt KInt) (a_self x) (a_key x));
    ("GetUInt64", 1080, fun x => QMapPtr (TyInt KUInt64) (a_self x) (a_key x)) ])%list.

(** Those of Array, Array.go:182-1131. *)
Definition array_calls : calls :=
  (calls_of (fun e x => QApi (array_append_call e (a_self x) (a_arg x))) array_appenders
   ++ [ ("Clone", 182, fun x => QClone (a_fuel x) KArr (a_self x));
    ("Len", 185, fun x => QApi (AArrLen (a_self x)));
    ("SetValueAtIndex", 188, fun x => QApi (AArrSetValueAtIndex (a_self x) (a_int x) (a_value x)));
    ("RemoveValueAtIndex", 200, fun x => QApi (AArrRemoveValueAtIndex (a_self x) (a_int x)));
    ("ToJSONString", 212, fun x => QArrText (a_fuel x) (a_self x) (a_text x));
    ("AppendValue", 412, fun x => QApi (AArrAppendValue (a_self x) (a_value x)));
    ("AppendValueValue", 416, fun x => QApi (AArrAppendValue (a_self x) (a_value x)));
    ("GetValues", 420, fun x => QApi (AArrGetValues (a_self x)));
    ("GetStringValue", 426, fun x => QElemStr (a_self x) (a_int x));
    ("GetMap", 453, fun x => QElemMap (a_self x) (a_int x));
    ("GetArrayOfInt8", 479, fun x => QArrPtrs (TyInt KInt8) (a_self x));
    ("GetArrayOfInt16", 506, fun x => QArrPtrs (TyInt KInt16) (a_self x));
    ("GetArrayOfInt32", 533, fun x => QArrPtrs (TyInt KInt32) (a_self x));
    ("GetArrayOfInt64", 560, fun x => QArrPtrs (TyInt KInt64) (a_self x));
    ("GetArrayOfUInt8", 587, fun x => QArrPtrs (TyInt KUInt8) (a_self x));
    ("GetArrayOfUInt16", 614, fun x => QArrPtrs (TyInt KUInt16) (a_self x));
    ("GetArrayOfUInt32", 641, fun x => QArrPtrs (TyInt KUInt32) (a_self x));
    ("GetArrayOfUInt64", 668, fun x => QArrPtrs (TyInt KUInt64) (a_self x));
    ("GetArrayOfInt8Value", 695, fun x => QArrVals (LInt KInt8) (a_self x));
    ("GetArrayOfInt16Value", 722, fun x => QArrVals (LInt KInt16) (a_self x));
    ("GetArrayOfInt32Value", 749, fun x => QArrVals (LInt KInt32) (a_self x));
    ("GetArrayOfInt64Value", 776, fun x => QArrVals (LInt KInt64) (a_self x));
    ("GetArrayOfUInt8Value", 803, fun x => QArrVals (LInt KUInt8) (a_self x));
    ("GetArrayOfUInt16Value", 830, fun x => QArrVals (LInt KUInt16) (a_self x));
    ("GetArrayOfUInt32Value", 857, fun x => QArrVals (LInt KUInt32) (a_self x));
    ("GetArrayOfUInt64Value", 884, fun x => QArrVals (LInt KUInt64) (a_self x));
    ("GetArrayOfBool", 911, fun x => QArrPtrs (TyBool) (a_self x));
    ("GetArrayOfBoolValue", 938, fun x => QArrVals (LBool) (a_self x));
    ("GetArrayOfString", 965, fun x => QArrPtrs (TyStr) (a_self x));
    ("GetArrayOfStringValue", 992, fun x => QArrVals (LString) (a_self x));
    ("GetArrayOfFloat32", 1019, fun x => QArrPtrs (TyFlt F32) (a_self x));
    ("GetArrayOfFloat32Value", 1046, fun x => QArrVals (LFloat32) (a_self x));
    ("GetArrayOfFloat64", 1076, fun x => QArrPtrs (TyFlt F64) (a_self x));
    ("GetArrayOfFloat64Value", 1103, fun x => QArrVals (LFloat64) (a_self x)) ])%list.

(** Those of Value, Value.go:365-1851. *)
Definition value_calls (X : ext) : calls :=
  (calls_of (fun e x => QApi (value_set_call e (a_self x) (a_arg x))) value_setters
   ++ calls_of (fun g x => QVal g (a_self x)) (value_getters X)
   ++ [ ("IsValueEqualToString", 613, fun x => QEqual (a_self x) (a_text x));
    ("IsValueEqualToStringValue", 632, fun x => QEqual (a_self x) (a_text x));
    ("GetRunes", 885, fun x => QValRunes (a_self x));
    ("GetTimeWithDecimalPlaces", 1357, fun x => QTime (Some (a_int x)) (a_self x));
    ("GetTime", 1364, fun x => QTime None (a_self x));
    ("GetTimeValue", 1371, fun x => QTimeV (a_self x));
    ("Clone", 1848, fun x => QClone (a_fuel x) KVal (a_self x));
    ("GetString", 552, fun x => QValPtr (TyStr) (a_self x));
    ("GetFloat64", 671, fun x => QValPtr (TyFlt F64) (a_self x));
    ("GetFloat32", 802, fun x => QValPtr (TyFlt F32) (a_self x));
    ("GetBool", 926, fun x => QValPtr (TyBool) (a_self x));
    ("GetInt64", 1025, fun x => QValPtr (TyInt KInt64) (a_self x));
    ("GetUInt64", 1216, fun x => QValPtr (TyInt KUInt64) (a_self x));
    ("GetInt8", 1428, fun x => QValPtr (TyInt KInt8) (a_self x));
    ("GetUInt8", 1484, fun x => QValPtr (TyInt KUInt8) (a_self x));
    ("GetInt16", 1536, fun x => QValPtr (TyInt KInt16) (a_self x));
    ("GetUInt16", 1588, fun x => QValPtr (TyInt KUInt16) (a_self x));
    ("GetInt32", 1640, fun x => QValPtr (TyInt KInt32) (a_self x));
    ("GetUInt32", 1714, fun x => QValPtr (TyInt KUInt32) (a_self x));
    ("GetInt", 1792, fun x => QValPtr (TyInt KInt) (a_self x)) ])%list.
