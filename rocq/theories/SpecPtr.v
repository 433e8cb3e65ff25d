(** * Specification: getters that hand out the stored pointer *)
From Coq Require Import String List.
From Verif Require Import GoStr GoNum GoFloat Heap.

(** [i] is a non-nil *string asked for a string, or a non-nil *bool asked for a bool. *)
Definition has_pointer (t : stype) (i : iface) : Prop :=
  (t = TyStr \/ t = TyBool) /\ exists q, i = IPtr t (Some q).
