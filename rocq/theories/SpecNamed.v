(** * Specification: methods named after types *)
From Coq Require Import String List NArith ZArith Bool.
From Verif Require Import GoStr GoNum GoFloat Heap SpecNum.
Local Open Scope string_scope.

(** The part of a method name that stands for a type. *)
Definition type_name (t : stype) : string :=
  match t with
  | TyStr => "String" | TyBool => "Bool" | TyFlt F32 => "Float32" | TyFlt F64 => "Float64"
  | TyInt KInt => "Int" | TyInt KInt8 => "Int8" | TyInt KInt16 => "Int16" | TyInt KInt32 => "Int32" | TyInt KInt64 => "Int64"
  | TyInt KUInt => "UInt" | TyInt KUInt8 => "UInt8" | TyInt KUInt16 => "UInt16" | TyInt KUInt32 => "UInt32"
  | TyInt KUInt64 => "UInt64"
  end.

(** Scalars of the types whose getter exists and gives them back: all but uint (no
    getter) and float32 (C30). *)
Definition plain (is64 : bool) (s : scalar) : Prop :=
  match s with
  | SInt KUInt _ | SFlt F32 _ => False
  | SInt k z => fits is64 k z
  | _ => True
  end.

(** The getters and predicates that a Map, given a key, and a Value have in common;
    besides these both have GetRunes, GetTime and GetTimeWithDecimalPlaces. *)
Import ListNotations.
Definition shared_names : list string :=
  ["GetMap"; "GetMapValue"; "IsBool"; "IsArray"; "IsEmptyString"; "IsInteger"; "IsInt"; "IsInt8";
   "IsInt16"; "IsInt32"; "IsInt64"; "IsUInt"; "IsUInt8"; "IsUInt16"; "IsUInt32"; "IsUInt64"; "IsString";
   "IsMap"; "IsBoolTrue"; "IsBoolFalse"; "GetErrors"; "GetType"; "GetFunc"; "GetArray"; "GetArrayValue";
   "GetString"; "IsFloat"; "IsFloat32"; "IsFloat64"; "GetStringValue"; "GetFloat32"; "GetFloat32Value";
   "GetFloat64Value"; "GetFloat64"; "GetBool"; "GetInt64"; "GetInt8"; "GetInt8Value"; "GetUInt8";
   "GetUInt8Value"; "GetInt16"; "GetInt16Value"; "GetUInt16"; "GetUInt16Value"; "GetInt32";
   "GetInt32Value"; "GetInt64Value"; "GetUInt32"; "GetUInt32Value"; "GetUInt64Value"; "GetInt";
   "GetIntValue"; "GetUInt64"].
