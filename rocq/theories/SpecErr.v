(** * Specification: errors as values, and elements read as messages *)
From Coq Require Import Ascii String List NArith ZArith Bool.
From Verif Require Import GoStr GoNum GoFloat Heap SpecDict SpecNum SpecWorld SpecDoc SpecRender.
Import ListNotations.

(** An error with message [s], or a pointer to one. *)
Definition error_object (i : iface) (s : str) : Prop :=
  i = IErr s \/ i = IPErr (Some (Plain s)) \/ exists n, i = IPErr (Some (Typed n s)).

(** The message an element of an array is read as: a string as it is, another scalar as
    its JSON text, an error as its message, a nil [*Value] as null.  Null, maps and
    arrays have none. *)
Inductive message (w : world) : option nat -> option str -> Prop :=
| me_none : message w None (Some (lit "null"))
| me_str v i t : w_val w v = Some i -> scalar_of w i = Some (SStr t) -> message w (Some v) (Some t)
| me_scal v i s t :
    w_val w v = Some i -> scalar_of w i = Some s -> stype_of s <> TyStr -> shows (DScal s) t ->
    message w (Some v) (Some t)
| me_err v i t : w_val w v = Some i -> error_object i t -> message w (Some v) (Some t)
| me_null v : w_val w v = Some INil -> message w (Some v) None
| me_map v i m : w_val w v = Some i -> i = IMap m \/ i = IPMap (Some m) -> message w (Some v) None
| me_arr v i a : w_val w v = Some i -> i = IArr a \/ i = IPArr (Some a) -> message w (Some v) None.

(** The elements that have such a reading. *)
Definition readable (is64 : bool) (w : world) (o : option nat) : Prop :=
  forall v, o = Some v -> exists i, w_val w v = Some i
    /\ ((exists s, scalar_of w i = Some s /\ proper_scalar is64 s) \/ (exists t, error_object i t) \/ i = INil
        \/ (exists m, i = IMap m \/ i = IPMap (Some m)) \/ (exists a, i = IArr a \/ i = IPArr (Some a))).

(** The messages that are there, and the number of elements without one. *)
Fixpoint messages (l : list (option str)) : list str :=
  match l with [] => [] | Some t :: l => t :: messages l | None :: l => messages l end.
Fixpoint missing (l : list (option str)) : nat :=
  match l with [] => 0 | Some _ :: l => missing l | None :: l => S (missing l) end.
