(** * github.com/matehaxor03/holistic_common, as used by /repo/json

    The dependency is not part of /repo.  What is assumed about it is stated
    here; what cannot be known from its uses is a field of [ext], over which all
    theorems quantify. *)
From Coq Require Import Ascii String List NArith ZArith Bool.
From Verif Require Import GoStr GoNum GoFloat Heap.
Import ListNotations.

(** Dynamic types, the results of [common.GetType]. *)
Inductive gtype :=
| TNil | TScal (t : stype) | TPtr (t : stype)
| TMap | TPMap | TArr | TPArr | TVal | TPVal
| TErrs | TStrs | TPErrs | TPStrs | TErr | TPErr | TTime | TFunc (ptr : bool) | TPTime | TOther (name : str).

(** Unknown behaviour of the environment. *)
Record ext := Ext {
  x_is64 : bool;               (* strconv.IntSize = 64, Value.go:1795 *)
  x_typed_nil : bool;          (* does common.GetType map a typed nil pointer to "nil"? *)
  x_known : gtype -> bool;     (* is a value of a type outside the JSON types recognised by
                                  one of common.IsValue/IsNumber/.../IsFunc (Value.go:657)? *)
  x_is_array : gtype -> bool;  (* common.IsArray on []error, []string and pointers to them *)
  x_escape : str -> option str;(* common.EscapeString of a key and the double quote, Map.go:335; None = error *)
  x_time : nat -> str;         (* time.Time.Format("2006-01-02 15:04:05.000000"), JSON.go:926 *)
  x_sprint : iface -> str;     (* fmt.Sprintf("%s", x) of a nested Value's object, JSON.go:1094,1096 *)
  x_errorf : str -> str        (* text of fmt.Errorf(s) without arguments, Value.go:205-236 *)
}.

(** [common.IsNil]: nil interface or typed nil pointer (used throughout). *)
Definition common_IsNil (i : iface) : bool :=
  match i with
  | INil => true
  | IPtr _ None | IPMap None | IPArr None | IPVal None => true
  | IPErrs None | IPStrs None | IPErr None | IPFunc None => true
  | ITime None | IOther _ None => true
  | _ => false
  end.

(** The [%T] type. *)
Definition static_type (i : iface) : gtype :=
  match i with
  | INil => TNil
  | IScal s => TScal (stype_of s)
  | IPtr t _ => TPtr t
  | IMap _ => TMap | IPMap _ => TPMap
  | IArr _ => TArr | IPArr _ => TPArr
  | IVal _ => TVal | IPVal _ => TPVal
  | IErrs _ => TErrs | IStrs _ => TStrs
  | IPErrs _ => TPErrs | IPStrs _ => TPStrs
  | IErr _ => TErr | IPErr _ => TPErr | ITimeV _ => TTime
  | IFunc _ => TFunc false | IPFunc _ => TFunc true
  | ITime _ => TPTime
  | IOther n _ => TOther n
  end.

(** [common.GetType]. *)
Definition common_GetType (X : ext) (i : iface) : gtype :=
  if common_IsNil i && x_typed_nil X then TNil else static_type i.

(** Type predicates: they look only at the type name and accept [T] and [*T]. *)
Definition scal_type (t : gtype) : option stype :=
  match t with TScal s | TPtr s => Some s | _ => None end.

Definition ikind_eqb (a b : ikind) : bool :=
  match a, b with
  | KInt, KInt | KInt8, KInt8 | KInt16, KInt16 | KInt32, KInt32 | KInt64, KInt64
  | KUInt, KUInt | KUInt8, KUInt8 | KUInt16, KUInt16 | KUInt32, KUInt32
  | KUInt64, KUInt64 => true
  | _, _ => false
  end.

Definition common_IsString (t : gtype) : bool :=
  match scal_type t with Some TyStr => true | _ => false end.
Definition common_IsBool (t : gtype) : bool :=
  match scal_type t with Some TyBool => true | _ => false end.
Definition common_IsIntKind (k : ikind) (t : gtype) : bool :=
  match scal_type t with Some (TyInt k') => ikind_eqb k k' | _ => false end.
Definition common_IsInteger (t : gtype) : bool :=
  match scal_type t with Some (TyInt _) => true | _ => false end.
Definition common_IsFloat32 (t : gtype) : bool :=
  match scal_type t with Some (TyFlt F32) => true | _ => false end.
Definition common_IsFloat64 (t : gtype) : bool :=
  match scal_type t with Some (TyFlt F64) => true | _ => false end.
Definition common_IsFloat (t : gtype) : bool := common_IsFloat32 t || common_IsFloat64 t.
Definition common_IsNumber (t : gtype) : bool := common_IsInteger t || common_IsFloat t.
Definition common_IsMap (t : gtype) : bool :=
  match t with TMap | TPMap => true | _ => false end.
Definition common_IsArray (X : ext) (t : gtype) : bool :=
  match t with
  | TArr | TPArr => true
  | TErrs | TStrs | TPErrs | TPStrs => x_is_array X t
  | _ => false
  end.
Definition common_IsValue (t : gtype) : bool :=
  match t with TVal | TPVal => true | _ => false end.
Definition common_IsFunc (t : gtype) : bool :=
  match t with TFunc _ => true | _ => false end.

(** The disjunction at Value.go:657-663 and Map.go:462-468. *)
Definition common_recognised (X : ext) (t : gtype) : bool :=
  common_IsValue t || common_IsNumber t || common_IsBool t || common_IsString t
  || common_IsArray X t || common_IsMap t || common_IsFunc t
  || match t with
     | TErrs | TStrs | TPErrs | TPStrs | TErr | TPErr | TTime | TPTime | TOther _ => x_known X t
     | _ => false
     end.

(** The types of package net/url and os/exec that Value.go:218-229, JSON.go:812-823 and
    JSON.go:1018-1025 name; their message is what [x_sprint] gives.  The code formats
    sometimes the pointer and sometimes the struct behind it: for exec.ExitError both
    print the process state, and for url.Error it always calls Error. *)
Definition error_types : list str := [lit "*url.Error"; lit "exec.ExitError"; lit "*exec.ExitError"].

(** Replacement of each double quote by backslash, double quote. *)
Definition escape_quotes (s : str) : str := replace_all [c_dq] [c_bs; c_dq] s.

(** The expected behaviour of [common.EscapeString] with the double quote; a
    hypothesis of the theorems about key texts. *)
Definition escape_ok (X : ext) : Prop := forall k, x_escape X k = Some (escape_quotes k).

(** A concrete environment, used to show that hypotheses are satisfiable and to
    run examples. *)
Definition std_ext : ext :=
  {| x_is64 := true; x_typed_nil := true; x_known := fun _ => false;
     x_is_array := fun _ => false; x_escape := fun k => Some (escape_quotes k);
     x_time := fun _ => lit "2023-01-01 00:00:00.000000";
     x_sprint := fun _ => []; x_errorf := fun s => s |}.
