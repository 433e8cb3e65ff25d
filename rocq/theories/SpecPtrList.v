(** * Specification: lists of pointers *)
From Coq Require Import String List.
From Verif Require Import GoStr GoNum GoFloat Heap Common ValueModel ArrayModel MapModel GetterModel SpecWorld.
Import ListNotations.

(** The answer of GetArrayOfT for the type [t], as scalars. *)
Definition as_scalars {A} (mk : A -> scalar) (r : res (gres (list (option A)))) : res (gres (list (option scalar))) :=
  rmap (fun g => match g with GVal l => GVal (map (option_map mk) l) | GErr e => GErr e end) r.
Definition listed (t : stype) (X : ext) (h : heap) (a : nat) : res (gres (list (option scalar))) :=
  match t with
  | TyStr => as_scalars SStr (arr_GetArrayOfString X h a)
  | TyBool => as_scalars SBool (arr_GetArrayOfBool X h a)
  | TyInt k => as_scalars (SInt k) (arr_GetArrayOfIntKind k X h a)
  | TyFlt F32 => as_scalars (SFlt F32) (arr_GetArrayOfFloat32 X h a)
  | TyFlt F64 => as_scalars (SFlt F64) (arr_GetArrayOfFloat64 X h a)
  end.

(** The pointer, nil or not, points to that scalar. *)
Definition points_to (w : world) (p : option nat) (c : option scalar) : Prop :=
  match p with None => c = None | Some q => c <> None /\ w_var w q = c end.
