(** * The read operations of json.Map, collected

    A name for every modelled getter and predicate, to quantify over them. *)
From Coq Require Import Ascii String List NArith ZArith Bool.
From Verif Require Import GoStr GoNum GoFloat Heap Common ValueModel ArrayModel MapModel.
Import ListNotations.

(** Map methods that take a key and read (Map.go:293-309,437-456,470-571,590-617,
    749-808,815-862,863-983,1080-1101); [GInt k] is GetInt/GetInt8/.../GetUInt64,
    [GIntV k] the Value form, [GIs p] a type predicate. *)
Inductive getter :=
| GHasKey | GIsNull | GValue
| GObject | GType | GIs (p : gtype -> bool) | GIsBoolVal (b : bool) | GIsEmptyString
| GInt (k : ikind) | GIntV (k : ikind)
| GFloat32 | GFloat32V | GFloat64 | GFloat64V
| GString | GStringV | GBool
| GMap | GMapV | GArray | GArrayV | GErrors | GFunc.

Inductive answer :=
| AnsBool (b : bool) | AnsLoc (o : option loc) | AnsObj (i : iface) | AnsType (t : gtype)
| AnsIntP (r : gres (option Z)) | AnsInt (r : gres Z)
| AnsFltP (r : gres (option flt)) | AnsFlt (r : gres flt)
| AnsStrP (r : gres (option str)) | AnsStr (r : gres str) | AnsBoolP (r : gres (option bool))
| AnsLocP (r : gres (option loc)) | AnsLocV (r : gres loc) | AnsErrs (r : gres (list goerr))
| AnsFunc (r : gres (option nat)) | AnsBoolV (r : gres bool).

Definition rmap {A B} (f : A -> B) (r : res A) : res B := rbind r (fun a => Ok (f a)).

Definition run_getter (g : getter) (X : ext) (h : heap) (m : loc) (k : str) : res answer :=
  match g with
  | GHasKey => rmap AnsBool (map_HasKey h m k)
  | GIsNull => rmap AnsBool (map_IsNull h m k)
  | GValue => rmap AnsLoc (map_GetValue h m k)
  | GObject => rmap AnsObj (map_GetObject h m k)
  | GType => rmap AnsType (map_GetType X h m k)
  | GIs p => rmap AnsBool (map_is p X h m k)
  | GIsBoolVal b => rmap AnsBool (map_IsBoolVal b X h m k)
  | GIsEmptyString => rmap AnsBool (map_IsEmptyString X h m k)
  | GInt kd => rmap AnsIntP (map_GetIntKind kd X h m k)
  | GIntV kd => rmap AnsInt (map_GetIntKindValue kd X h m k)
  | GFloat32 => rmap AnsFltP (map_GetFloat32 X h m k)
  | GFloat32V => rmap AnsFlt (map_GetFloat32Value X h m k)
  | GFloat64 => rmap AnsFltP (map_GetFloat64 X h m k)
  | GFloat64V => rmap AnsFlt (map_GetFloat64Value X h m k)
  | GString => rmap AnsStrP (map_GetString X h m k)
  | GStringV => rmap AnsStr (map_GetStringValue X h m k)
  | GBool => rmap AnsBoolP (map_GetBool X h m k)
  | GMap => rmap AnsLocP (map_GetMap X h m k)
  | GMapV => rmap AnsLocV (map_GetMapValue X h m k)
  | GArray => rmap AnsLocP (map_GetArray X h m k)
  | GArrayV => rmap AnsLocV (map_GetArrayValue X h m k)
  | GErrors => rmap AnsErrs (map_GetErrors X h m k)
  | GFunc => rmap AnsFunc (map_GetFunc X h m k)
  end.

(** The getter for a scalar type, with the answer for a present scalar. *)
Definition getter_of (t : stype) : getter :=
  match t with
  | TyStr => GString | TyBool => GBool | TyInt k => GInt k
  | TyFlt F32 => GFloat32 | TyFlt F64 => GFloat64
  end.
Definition answer_of (s : scalar) : answer :=
  match s with
  | SStr t => AnsStrP (GVal (Some t))
  | SBool b => AnsBoolP (GVal (Some b))
  | SInt _ z => AnsIntP (GVal (Some z))
  | SFlt _ f => AnsFltP (GVal (Some f))
  end.

(** The Value form of the getter, where the Map has one (GetBoolValue and
    GetUIntValue, Map.go:65,105, are never assigned). *)
Definition value_getter_of (t : stype) : option getter :=
  match t with
  | TyStr => Some GStringV | TyBool => None | TyInt k => Some (GIntV k)
  | TyFlt F32 => Some GFloat32V | TyFlt F64 => Some GFloat64V
  end.
Definition value_answer_of (s : scalar) : answer :=
  match s with
  | SStr t => AnsStr (GVal t)
  | SBool b => AnsBoolV (GVal b)
  | SInt _ z => AnsInt (GVal z)
  | SFlt _ f => AnsFlt (GVal f)
  end.

(** The predicate method of a scalar type: IsString, IsBool, IsInt..IsUInt64,
    IsFloat32, IsFloat64 (Map.go:470-571). *)
Definition pred_of (t : stype) : gtype -> bool :=
  match t with
  | TyStr => common_IsString | TyBool => common_IsBool
  | TyInt k => common_IsIntKind k
  | TyFlt F32 => common_IsFloat32 | TyFlt F64 => common_IsFloat64
  end.
