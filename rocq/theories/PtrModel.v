(** * The pointers returned by the getters

    GetString, GetBool, GetInt8, ... return pointers; GetterModel.v gives what they
    point to, this file the pointers themselves. *)
From Coq Require Import Ascii String List NArith ZArith Bool.
From Verif Require Import GoStr GoNum GoFloat Heap Common ValueModel ArrayModel MapModel GetterModel.
Import ListNotations.

(** A result in a new variable: [result := &x; return result]. *)
Definition in_new {A} (mk : A -> scalar) (r : res (gres (option A))) : M (gres (option loc)) :=
  fun h =>
    x <-r r ;;
    match x with
    | GErr e => Ok (GErr e, h)
    | GVal None => Ok (GVal None, h)
    | GVal (Some a) => bind (alloc (CPtr (mk a))) (fun p => ret (GVal (Some p))) h
    end.

(** GetString, GetBool (Value.go:552-576,926-975) return a stored pointer of their
    type itself; GetInt64 and the getters that call it (Value.go:1025-1155,1216-1356,
    1428-1822), GetFloat64 and GetFloat32 (Value.go:671-826) point to a local variable. *)
Definition value_ptr (t : stype) (X : ext) (v : loc) : M (gres (option loc)) :=
  match t with
  | TyStr => value_GetString X v
  | TyBool => value_GetBool X v
  | TyInt k => fun h => in_new (SInt k) (value_GetIntKind k X h v) h
  | TyFlt F32 => fun h => in_new (SFlt F32) (value_GetFloat32 X h v) h
  | TyFlt F64 => fun h => in_new (SFlt F64) (value_GetFloat64 X h v) h
  end.

(** The same methods of Map (Map.go:749-754,781-808,825-830,863-983): nil when
    isValueNilForMap, otherwise the getter of the stored Value; GetUInt is nil. *)
Definition map_ptr (t : stype) (X : ext) (m : loc) (k : str) : M (gres (option loc)) :=
  match t with
  | TyInt KUInt => fun _ => Panic
  | _ => fun h => map_via (GVal None, h) (fun v => value_ptr t X v h) h m k
  end.
