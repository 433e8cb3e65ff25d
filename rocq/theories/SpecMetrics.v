(** * Specification: counting, and what a parser gives *)
From Coq Require Import Ascii String List NArith ZArith Bool.
From Verif Require Import GoStr GoNum GoFloat Heap Common SpecWorld Inv World Reach SpecDoc SpecParse.
Import ListNotations.

(** How often [k] occurs in the list. *)
Definition times (k : str) (l : list str) : nat := length (filter (str_eqb k) l).

(** [parses] of SpecParse.v for the outcome [p] of any parser run in the state [h]. *)
Definition gives (X : ext) (h : heap) (p : res (gres (option loc) * heap)) (r : gres doc) : Prop :=
  match r with
  | GVal d => exists h' m, p = Ok (GVal (Some m), h')
      /\ reachable X h' /\ unchanged h h' /\ rep_obj NoNils (view h') (new_in h) (IMap m) d
      /\ no_sharing (view h') m
  | GErr e => e <> [] /\ exists h', p = Ok (GErr e, h') /\ reachable X h' /\ unchanged h h'
  end.
