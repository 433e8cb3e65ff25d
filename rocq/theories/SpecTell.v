(** * Specification: objects a program can be given in place of others

    Handles are typed: a program that expects a *json.Map is not given a *json.Array. *)
From Coq Require Import Ascii String List NArith ZArith Bool.
From Verif Require Import GoStr GoNum GoFloat Heap Common SpecDict SpecWorld.
Import ListNotations.

Inductive same_kind (w w' : world) (a b : nat) : Prop :=
| sk_map d d' : w_map w a = Some d -> w_map w' b = Some d' -> same_kind w w' a b
| sk_arr l l' : w_arr w a = Some l -> w_arr w' b = Some l' -> same_kind w w' a b
| sk_val i i' : w_val w a = Some i -> w_val w' b = Some i' -> same_kind w w' a b
| sk_var s s' : w_var w a = Some s -> w_var w' b = Some s' -> stype_of s = stype_of s' -> same_kind w w' a b.

(** Two lists of handles: of the same types, and equal in the same places (which a program
    sees by comparing them). *)
Definition same_handles (w w' : world) (t t' : list nat) : Prop :=
  Forall2 (same_kind w w') t t'
  /\ forall i j, i < length t -> j < length t -> (nth i t 0 = nth j t 0 <-> nth i t' 0 = nth j t' 0).
