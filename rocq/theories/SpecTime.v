(** * Specification: what the time library is asked *)
From Coq Require Import Ascii String List NArith ZArith Bool.
From Verif Require Import GoStr GoNum GoFloat Heap Common SpecDict SpecWorld SpecString TimeModel.
Import ListNotations.

(** The question about the object [i]: its type, its scalar, its time. *)
Definition question (w : world) (i : iface) : time_arg :=
  TimeArg (static_type i) (scalar_of w i) (match i with ITime o => o | ITimeV t => Some t | _ => None end).

(** The answer for the object at a key: nothing for no object and for one that counts as
    unset, otherwise the library's. *)
Definition time_answer (read : time_arg -> res (gres (option nat))) (X : ext) (w : world) (o : option iface)
  : res (gres (option nat)) :=
  match o with
  | None => Ok (GVal None)
  | Some i => if unset X i then Ok (GVal None) else read (question w i)
  end.
