(** * A program that reads along a path

    Calls of GetValue (Map.go:307-309), GetValues (Array.go:420-422) and of the methods
    GetMap and GetArray of Value (Value.go:398-417,515-539). *)
From Coq Require Import Ascii String List NArith ZArith Bool.
From Verif Require Import GoStr GoNum GoFloat Heap Common ValueModel ArrayModel MapModel SpecDoc.
Import ListNotations.

(** [m.GetValue(k)], or [( *a.GetValues())[n]]. *)
Definition fetch (h : heap) (c : loc) (x : pos) : res (option loc) :=
  match x with
  | PKey k => map_GetValue h c k
  | PIndex n => l <-r arr_GetValues h c ;;
                match nth_error l n with Some o => Ok o | None => Panic end
  end.

(** The container of the value [v] that the next step needs: [v.GetMap()] before a key,
    [v.GetArray()] before an index. *)
Definition enter (X : ext) (h : heap) (v : loc) (x : pos) : res (gres (option loc)) :=
  match x with
  | PKey _ => value_GetMap X h v
  | PIndex _ => value_GetArray X h v
  end.

(** Go from the container [c] along [x :: p] to a value.  Errors end the program; a
    method call on a nil [*Value], [*Map] or [*Array] panics. *)
Fixpoint go (X : ext) (h : heap) (c : loc) (x : pos) (p : list pos) : res (gres (option loc)) :=
  o <-r fetch h c x ;;
  match p with
  | [] => Ok (GVal o)
  | y :: q =>
      match o with
      | None => Panic
      | Some v =>
          r <-r enter X h v y ;;
          match r with
          | GErr e => Ok (GErr e)
          | GVal None => Panic
          | GVal (Some c') => go X h c' y q
          end
      end
  end.
