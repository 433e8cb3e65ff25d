(** * Specification: programs that share objects *)
From Coq Require Import Ascii String List NArith ZArith Bool.
From Verif Require Import GoStr GoNum GoFloat Heap Common TimeModel SpecDict SpecWorld Inv World Reach SpecAlike ClientModel TeamModel.
Import ListNotations.

(** The memory of an object: its own cell and, for a map, the list of values it keeps. *)
Definition memory (h : heap) (a : nat) : list nat :=
  a :: match nth_error h a with Some (CMap mo) => [m_vals mo] | _ => [] end.

(** Alone, the program leaves the object as it is, at every moment. *)
Definition leaves (X : ext) (L : timelib) (h : heap) (c : client) (t : list nat) (a : nat) : Prop :=
  forall n x, In x (memory h a) -> nth_error (snd (play X L n c [] t h)) x = nth_error h x.

(** No member changes, when it runs alone, an object that another one can reach.  All may
    change objects they made and objects that nobody else reaches. *)
Definition fair_team (X : ext) (L : timelib) (h : heap) (members : list member) : Prop :=
  (forall i c t S, nth_error members i = Some (c, t, S) -> self_contained (view h) S /\ incl t S)
  /\ forall i j c t S c' t' S', i <> j ->
       nth_error members i = Some (c, t, S) -> nth_error members j = Some (c', t', S') ->
       forall a, In a S' -> leaves X L h c t a.
