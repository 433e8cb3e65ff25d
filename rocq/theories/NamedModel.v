(** * The methods by their names

    The setters, appenders, getters and type predicates of Map, Array and Value as
    tables: the name of each, the line in /repo/json of its initialiser and the
    operation of the model it performs.  A name that is not in a table is a method
    modelled elsewhere, or one that is never assigned (MethodTable.v). *)
From Coq Require Import String List NArith ZArith Bool.
From Verif Require Import GoStr GoNum GoFloat Heap Common ValueModel ArrayModel MapModel GetterModel SpecWorld.
Import ListNotations.
Local Open Scope string_scope.
Local Open Scope N_scope.

(** The type of the argument (None: interface{}), and whether the address of the
    argument is stored or the argument itself. *)
Record setter := St { st_type : option gtype; st_addr : bool }.
Definition table (A : Type) := list (string * N * A).
Fixpoint method {A} (t : table A) (n : string) : option A :=
  match t with
  | [] => None
  | (x, _, a) :: t => if String.eqb x n then Some a else method t n
  end.

(** Setters of Map, Map.go:446-453,578-589,608-611,821-850,984-1089. *)
Definition map_setters : table setter :=
  [ ("SetMap", 446, St (Some TPMap) false); ("SetMapValue", 450, St (Some TMap) true);
    ("SetArray", 578, St (Some TPArr) false); ("SetArrayValue", 582, St (Some TArr) true);
    ("SetErrors", 586, St (Some TErrs) false); ("SetFunc", 608, St (Some (TFunc true)) false);
    ("SetObjectForMap", 821, St None false); ("SetBool", 831, St (Some (TPtr TyBool)) false);
    ("SetBoolValue", 835, St (Some (TScal TyBool)) true); ("SetString", 839, St (Some (TPtr TyStr)) false);
    ("SetStringValue", 843, St (Some (TScal TyStr)) true); ("SetNil", 847, St (Some TNil) false);
    ("SetInt", 984, St (Some (TPtr (TyInt KInt))) false);
    ("SetInt64", 988, St (Some (TPtr (TyInt KInt64))) false);
    ("SetInt32", 992, St (Some (TPtr (TyInt KInt32))) false);
    ("SetInt16", 996, St (Some (TPtr (TyInt KInt16))) false);
    ("SetInt8", 1000, St (Some (TPtr (TyInt KInt8))) false);
    ("SetIntValue", 1004, St (Some (TScal (TyInt KInt))) true);
    ("SetInt64Value", 1008, St (Some (TScal (TyInt KInt64))) true);
    ("SetInt32Value", 1012, St (Some (TScal (TyInt KInt32))) true);
    ("SetInt16Value", 1016, St (Some (TScal (TyInt KInt16))) true);
    ("SetInt8Value", 1020, St (Some (TScal (TyInt KInt8))) true);
    ("SetUInt", 1024, St (Some (TPtr (TyInt KUInt))) false);
    ("SetUInt64", 1028, St (Some (TPtr (TyInt KUInt64))) false);
    ("SetUInt32", 1032, St (Some (TPtr (TyInt KUInt32))) false);
    ("SetUInt16", 1036, St (Some (TPtr (TyInt KUInt16))) false);
    ("SetUInt8", 1040, St (Some (TPtr (TyInt KUInt8))) false);
    ("SetUIntValue", 1044, St (Some (TScal (TyInt KUInt))) true);
    ("SetUInt64Value", 1048, St (Some (TScal (TyInt KUInt64))) true);
    ("SetUInt32Value", 1052, St (Some (TScal (TyInt KUInt32))) true);
    ("SetUInt16Value", 1056, St (Some (TScal (TyInt KUInt16))) true);
    ("SetUInt8Value", 1060, St (Some (TScal (TyInt KUInt8))) true);
    ("SetFloat64", 1064, St (Some (TPtr (TyFlt F64))) false);
    ("SetFloat64Value", 1068, St (Some (TScal (TyFlt F64))) true);
    ("SetFloat32", 1072, St (Some (TPtr (TyFlt F32))) false);
    ("SetFloat32Value", 1076, St (Some (TScal (TyFlt F32))) true);
    ("SetTime", 1086, St (Some TPTime) false) ].

(** Appenders of Array, Array.go:247-411. *)
Definition array_appenders : table setter :=
  [ ("AppendString", 247, St (Some (TPtr TyStr)) false);
    ("AppendStringValue", 252, St (Some (TScal TyStr)) false);
    ("AppendUInt", 257, St (Some (TPtr (TyInt KUInt))) false);
    ("AppendUIntValue", 262, St (Some (TScal (TyInt KUInt))) false);
    ("AppendUInt8", 267, St (Some (TPtr (TyInt KUInt8))) false);
    ("AppendUInt8Value", 272, St (Some (TScal (TyInt KUInt8))) false);
    ("AppendUInt16", 277, St (Some (TPtr (TyInt KUInt16))) false);
    ("AppendUInt16Value", 282, St (Some (TScal (TyInt KUInt16))) false);
    ("AppendUInt32", 287, St (Some (TPtr (TyInt KUInt32))) false);
    ("AppendUInt32Value", 292, St (Some (TScal (TyInt KUInt32))) false);
    ("AppendUInt64", 297, St (Some (TPtr (TyInt KUInt64))) false);
    ("AppendUInt64Value", 302, St (Some (TScal (TyInt KUInt64))) false);
    ("AppendInt", 307, St (Some (TPtr (TyInt KInt))) false);
    ("AppendIntValue", 312, St (Some (TScal (TyInt KInt))) false);
    ("AppendInt8", 317, St (Some (TPtr (TyInt KInt8))) false);
    ("AppendInt8Value", 322, St (Some (TScal (TyInt KInt8))) false);
    ("AppendInt16", 327, St (Some (TPtr (TyInt KInt16))) false);
    ("AppendInt16Value", 332, St (Some (TScal (TyInt KInt16))) false);
    ("AppendInt32", 337, St (Some (TPtr (TyInt KInt32))) false);
    ("AppendInt32Value", 342, St (Some (TScal (TyInt KInt32))) false);
    ("AppendInt64", 347, St (Some (TPtr (TyInt KInt64))) false);
    ("AppendInt64Value", 352, St (Some (TScal (TyInt KInt64))) false);
    ("AppendFloat32", 357, St (Some (TPtr (TyFlt F32))) false);
    ("AppendFloat32Value", 362, St (Some (TScal (TyFlt F32))) false);
    ("AppendFloat64", 367, St (Some (TPtr (TyFlt F64))) false);
    ("AppendFloat64Value", 372, St (Some (TScal (TyFlt F64))) false);
    ("AppendBool", 377, St (Some (TPtr TyBool)) false);
    ("AppendBoolValue", 382, St (Some (TScal TyBool)) false); ("AppendNil", 387, St (Some TNil) false);
    ("AppendMap", 392, St (Some TPMap) false); ("AppendMapValue", 397, St (Some TMap) false);
    ("AppendArray", 402, St (Some TPArr) false); ("AppendArrayValue", 407, St (Some TArr) false) ].

(** Setters of Value, Value.go:365-376,577-582,796-801,852-869,920-925,1022-1024,1156-1215,
    1380-1385,1842-1844. *)
Definition value_setters : table setter :=
  [ ("SetMap", 365, St (Some TPMap) false); ("SetMapValue", 368, St (Some TMap) false);
    ("SetArray", 371, St (Some TPArr) false); ("SetArrayValue", 374, St (Some TArr) false);
    ("SetString", 577, St (Some (TPtr TyStr)) false); ("SetStringValue", 580, St (Some (TScal TyStr)) false);
    ("SetFloat64", 796, St (Some (TPtr (TyFlt F64))) false);
    ("SetFloat64Value", 799, St (Some (TScal (TyFlt F64))) false);
    ("SetFloat32", 852, St (Some (TPtr (TyFlt F32))) false);
    ("SetFloat32Value", 855, St (Some (TScal (TyFlt F32))) false); ("SetError", 858, St (Some TPErr) false);
    ("SetErrorValue", 861, St (Some TErr) false); ("SetErrors", 864, St (Some TPErrs) false);
    ("SetErrorsValue", 867, St (Some TErrs) false); ("SetBool", 920, St (Some (TPtr TyBool)) false);
    ("SetBoolValue", 923, St (Some (TScal TyBool)) false); ("SetNil", 1022, St (Some TNil) false);
    ("SetInt64", 1156, St (Some (TPtr (TyInt KInt64))) false);
    ("SetInt64Value", 1159, St (Some (TScal (TyInt KInt64))) false);
    ("SetInt32", 1162, St (Some (TPtr (TyInt KInt32))) false);
    ("SetInt32Value", 1165, St (Some (TScal (TyInt KInt32))) false);
    ("SetInt16", 1168, St (Some (TPtr (TyInt KInt16))) false);
    ("SetInt16Value", 1171, St (Some (TScal (TyInt KInt16))) false);
    ("SetInt8", 1174, St (Some (TPtr (TyInt KInt8))) false);
    ("SetInt8Value", 1177, St (Some (TScal (TyInt KInt8))) false);
    ("SetInt", 1180, St (Some (TPtr (TyInt KInt))) false);
    ("SetIntValue", 1183, St (Some (TScal (TyInt KInt))) false);
    ("SetUInt64", 1186, St (Some (TPtr (TyInt KUInt64))) false);
    ("SetUInt64Value", 1189, St (Some (TScal (TyInt KUInt64))) false);
    ("SetUInt32", 1192, St (Some (TPtr (TyInt KUInt32))) false);
    ("SetUInt32Value", 1195, St (Some (TScal (TyInt KUInt32))) false);
    ("SetUInt16", 1198, St (Some (TPtr (TyInt KUInt16))) false);
    ("SetUInt16Value", 1201, St (Some (TScal (TyInt KUInt16))) false);
    ("SetUInt8", 1204, St (Some (TPtr (TyInt KUInt8))) false);
    ("SetUInt8Value", 1207, St (Some (TScal (TyInt KUInt8))) false);
    ("SetUInt", 1210, St (Some (TPtr (TyInt KUInt))) false);
    ("SetUIntValue", 1213, St (Some (TScal (TyInt KUInt))) false); ("SetTime", 1380, St (Some TPTime) false);
    ("SetTimeValue", 1383, St (Some TTime) false); ("SetObject", 1842, St None false) ].

(** The call of the API a setter is; its argument is a scalar or a container when the
    address is stored. *)
Definition map_set_call (e : setter) (m : nat) (k : str) (i : iface) : api :=
  match st_addr e, i with
  | true, IScal s => AMapSetScalarValue m k s
  | true, IMap z => AMapSet m k (IPMap (Some z))
  | true, IArr z => AMapSet m k (IPArr (Some z))
  | _, _ => AMapSet m k i
  end.
Definition array_append_call (e : setter) (a : nat) (i : iface) : api := AArrAppend a i.
Definition value_set_call (e : setter) (v : nat) (i : iface) : api := AValSetObject v i.

(** Getters and predicates of Map that take a key, Map.go:437-617,749-983,1080-1085. *)
Definition map_getters (X : ext) : table getter :=
  [ ("GetMap", 437, GMap); ("GetMapValue", 440, GMapV); ("GetValue", 443, GValue); ("IsNull", 454, GIsNull);
    ("IsBool", 470, GIs common_IsBool); ("IsArray", 476, GIs (common_IsArray X));
    ("IsEmptyString", 479, GIsEmptyString); ("IsInteger", 485, GIs common_IsInteger);
    ("IsInt", 491, GIs (common_IsIntKind KInt)); ("IsInt8", 497, GIs (common_IsIntKind KInt8));
    ("IsInt16", 503, GIs (common_IsIntKind KInt16)); ("IsInt32", 509, GIs (common_IsIntKind KInt32));
    ("IsInt64", 515, GIs (common_IsIntKind KInt64)); ("IsUInt", 521, GIs (common_IsIntKind KUInt));
    ("IsUInt8", 527, GIs (common_IsIntKind KUInt8)); ("IsUInt16", 533, GIs (common_IsIntKind KUInt16));
    ("IsUInt32", 539, GIs (common_IsIntKind KUInt32)); ("IsUInt64", 545, GIs (common_IsIntKind KUInt64));
    ("IsString", 551, GIs common_IsString); ("IsMap", 557, GIs common_IsMap);
    ("IsBoolTrue", 560, GIsBoolVal true); ("IsBoolFalse", 566, GIsBoolVal false);
    ("GetErrors", 590, GErrors); ("GetType", 596, GType); ("GetFunc", 602, GFunc); ("GetArray", 612, GArray);
    ("GetArrayValue", 615, GArrayV); ("GetString", 749, GString); ("IsFloat", 755, GIs common_IsFloat);
    ("IsFloat32", 761, GIs common_IsFloat32); ("IsFloat64", 767, GIs common_IsFloat64);
    ("GetStringValue", 773, GStringV); ("GetFloat32", 781, GFloat32); ("GetFloat32Value", 787, GFloat32V);
    ("GetFloat64Value", 795, GFloat64V); ("GetFloat64", 803, GFloat64); ("GetObjectForMap", 815, GObject);
    ("GetBool", 825, GBool); ("HasKey", 851, GHasKey); ("GetInt64", 863, GInt KInt64);
    ("GetInt8", 869, GInt KInt8); ("GetInt8Value", 875, GIntV KInt8); ("GetUInt8", 883, GInt KUInt8);
    ("GetUInt8Value", 889, GIntV KUInt8); ("GetInt16", 897, GInt KInt16);
    ("GetInt16Value", 903, GIntV KInt16); ("GetUInt16", 911, GInt KUInt16);
    ("GetUInt16Value", 917, GIntV KUInt16); ("GetInt32", 925, GInt KInt32);
    ("GetInt32Value", 931, GIntV KInt32); ("GetInt64Value", 939, GIntV KInt64);
    ("GetUInt32", 947, GInt KUInt32); ("GetUInt32Value", 953, GIntV KUInt32);
    ("GetUInt64Value", 961, GIntV KUInt64); ("GetInt", 969, GInt KInt); ("GetIntValue", 976, GIntV KInt);
    ("GetUInt64", 1080, GInt KUInt64) ].

(** Getters and predicates of Value. *)
Inductive vgetter :=
| VObject | VType | VIsNil | VIs (p : gtype -> bool) | VIsBoolVal (b : bool) | VIsEmptyString
| VInt (k : ikind) | VIntV (k : ikind) | VFloat32 | VFloat32V | VFloat64 | VFloat64V
| VString | VStringV | VBool | VBoolV | VMap | VMapV | VArray | VArrayV | VErrors | VFunc.
Definition run_vgetter (g : vgetter) (X : ext) (h : heap) (v : loc) : res answer :=
  match g with
  | VObject => rmap AnsObj (value_GetObject h v)
  | VType => rmap AnsType (value_GetType X h v)
  | VIsNil => rmap AnsBool (value_IsNil X h v)
  | VIs p => rmap AnsBool (value_is p X h v)
  | VIsBoolVal b => rmap AnsBool (value_IsBoolVal b X h v)
  | VIsEmptyString => rmap AnsBool (value_IsEmptyString X h v)
  | VInt k => rmap AnsIntP (value_GetIntKind k X h v)
  | VIntV k => rmap AnsInt (value_GetIntKindValue k X h v)
  | VFloat32 => rmap AnsFltP (value_GetFloat32 X h v)
  | VFloat32V => rmap AnsFlt (value_GetFloat32Value X h v)
  | VFloat64 => rmap AnsFltP (value_GetFloat64 X h v)
  | VFloat64V => rmap AnsFlt (value_GetFloat64Value X h v)
  | VString => rmap AnsStrP (value_GetString_content X h v)
  | VStringV => rmap AnsStr (value_GetStringValue X h v)
  | VBool => rmap AnsBoolP (value_GetBool_content X h v)
  | VBoolV => rmap AnsBoolV (value_GetBoolValue X h v)
  | VMap => rmap AnsLocP (value_GetMap X h v)
  | VMapV => rmap AnsLocV (value_GetMapValue X h v)
  | VArray => rmap AnsLocP (value_GetArray X h v)
  | VArrayV => rmap AnsLocV (value_GetArrayValue X h v)
  | VErrors => rmap AnsErrs (value_GetErrors X h v)
  | VFunc => rmap AnsFunc (value_GetFunc X h v)
  end.
Definition value_getters (X : ext) : table vgetter :=
  [ ("IsMap", 377, VIs common_IsMap); ("IsEmptyString", 380, VIsEmptyString); ("GetMap", 398, VMap);
    ("GetMapValue", 418, VMapV); ("GetFunc", 438, VFunc); ("GetErrors", 461, VErrors);
    ("GetArray", 515, VArray); ("GetArrayValue", 540, VArrayV); ("GetString", 552, VString);
    ("GetStringValue", 583, VStringV); ("IsFloat", 598, VIs common_IsFloat);
    ("IsFloat32", 601, VIs common_IsFloat32); ("IsFloat64", 604, VIs common_IsFloat64);
    ("IsNumber", 607, VIs common_IsNumber); ("IsString", 610, VIs common_IsString); ("IsNil", 651, VIsNil);
    ("IsBool", 665, VIs common_IsBool); ("IsArray", 668, VIs (common_IsArray X));
    ("GetFloat64", 671, VFloat64); ("GetFloat32", 802, VFloat32); ("GetFloat32Value", 827, VFloat32V);
    ("GetFloat64Value", 870, VFloat64V); ("GetBool", 926, VBool); ("GetBoolValue", 976, VBoolV);
    ("GetInt64", 1025, VInt KInt64); ("GetUInt64", 1216, VInt KUInt64); ("GetType", 1386, VType);
    ("IsInteger", 1389, VIs common_IsInteger); ("IsInt", 1392, VIs (common_IsIntKind KInt));
    ("IsInt8", 1395, VIs (common_IsIntKind KInt8)); ("IsInt16", 1398, VIs (common_IsIntKind KInt16));
    ("IsInt32", 1401, VIs (common_IsIntKind KInt32)); ("IsInt64", 1404, VIs (common_IsIntKind KInt64));
    ("IsUInt", 1407, VIs (common_IsIntKind KUInt)); ("IsUInt8", 1410, VIs (common_IsIntKind KUInt8));
    ("IsUInt16", 1413, VIs (common_IsIntKind KUInt16)); ("IsUInt32", 1416, VIs (common_IsIntKind KUInt32));
    ("IsUInt64", 1419, VIs (common_IsIntKind KUInt64)); ("IsBoolTrue", 1422, VIsBoolVal true);
    ("IsBoolFalse", 1425, VIsBoolVal false); ("GetInt8", 1428, VInt KInt8);
    ("GetInt8Value", 1458, VIntV KInt8); ("GetUInt8", 1484, VInt KUInt8);
    ("GetUInt8Value", 1510, VIntV KUInt8); ("GetInt16", 1536, VInt KInt16);
    ("GetInt16Value", 1562, VIntV KInt16); ("GetUInt16", 1588, VInt KUInt16);
    ("GetUInt16Value", 1614, VIntV KUInt16); ("GetInt32", 1640, VInt KInt32);
    ("GetInt32Value", 1670, VIntV KInt32); ("GetInt64Value", 1696, VIntV KInt64);
    ("GetUInt32", 1714, VInt KUInt32); ("GetUInt32Value", 1740, VIntV KUInt32);
    ("GetUInt64Value", 1766, VIntV KUInt64); ("GetInt", 1792, VInt KInt); ("GetIntValue", 1824, VIntV KInt);
    ("GetObject", 1845, VObject) ].

(** Calling a getter by name; a field that is nil panics. *)
Definition map_get (n : string) (X : ext) (h : heap) (m : loc) (k : str) : res answer :=
  match method (map_getters X) n with Some g => run_getter g X h m k | None => Panic end.
Definition value_get (n : string) (X : ext) (h : heap) (v : loc) : res answer :=
  match method (value_getters X) n with Some g => run_vgetter g X h v | None => Panic end.
