(** * Specification: what a stored object is when it is asked for a string or a map *)
From Coq Require Import Ascii String List NArith ZArith Bool.
From Verif Require Import GoStr GoNum GoFloat Heap Common SpecDict SpecWorld.
Import ListNotations.

(** Go values outside the JSON types (errors, lists of errors or strings, times and other
    types) count as values only if one of the environment's type predicates knows
    them; otherwise they count as unset. *)
Definition known (X : ext) (i : iface) : bool :=
  match i with
  | IErrs _ => x_known X TErrs || x_is_array X TErrs
  | IStrs _ => x_known X TStrs || x_is_array X TStrs
  | IPErrs _ => x_known X TPErrs || x_is_array X TPErrs
  | IPStrs _ => x_known X TPStrs || x_is_array X TPStrs
  | IErr _ => x_known X TErr
  | IPErr _ => x_known X TPErr
  | ITimeV _ => x_known X TTime
  | ITime _ => x_known X TPTime
  | IOther n _ => x_known X (TOther n)
  | _ => true
  end.
Definition unset (X : ext) (i : iface) : bool := nil_object i || negb (known X i).

(** A string (or a pointer to one), nothing, or something else. *)
Inductive text_kind := Text (t : str) | Unset | Wrong.
Definition text_kind_of (X : ext) (w : world) (i : iface) : text_kind :=
  if unset X i then Unset
  else match scalar_of w i with Some (SStr t) => Text t | _ => Wrong end.

(** A map (or a pointer to one), nothing, or something else. *)
Inductive map_kind := AMap (m : nat) | UnsetMap | WrongMap.
Definition map_kind_of (X : ext) (i : iface) : map_kind :=
  if unset X i then UnsetMap
  else match i with IMap m | IPMap (Some m) => AMap m | _ => WrongMap end.

(** A function (or a pointer to one), nothing, or something else. *)
Inductive func_kind := AFunc (f : nat) | NoFunc | WrongFunc.
Definition func_kind_of (X : ext) (i : iface) : func_kind :=
  if unset X i then NoFunc
  else match i with IFunc f | IPFunc (Some f) => AFunc f | _ => WrongFunc end.
