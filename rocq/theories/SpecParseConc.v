(** * Specification: Parse calls that run at the same time *)
From Coq Require Import Ascii String List NArith ZArith Bool.
From Verif Require Import GoStr GoNum GoFloat Heap Common ValueModel ArrayModel MapModel JsonModel ParserModel
  SpecDict SpecWorld Inv World Reach SpecDoc SpecParse.
Import ListNotations.

(** Object [l] is the same in [h'] as in [h]. *)
Definition same_object (h h' : heap) (l : nat) : Prop :=
  w_map (view h') l = w_map (view h) l /\ w_arr (view h') l = w_arr (view h) l
  /\ w_val (view h') l = w_val (view h) l /\ w_var (view h') l = w_var (view h) l.

(** [r], returned in state [h], is what Parse(s) returns when nothing else runs,
    whatever the state it is called in; a returned map is made of the objects [mine]
    only. *)
Definition as_alone (X : ext) (s : str) (r : gres (option loc)) (h : heap) (mine : nat -> Prop) : Prop :=
  match r with
  | GErr e => forall g, reachable X g -> parses X g s (GErr e)
  | GVal None => False
  | GVal (Some m) => exists d,
      rep_obj NoNils (view h) mine (IMap m) d /\ no_sharing (view h) m
      /\ forall g, reachable X g -> parses X g s (GVal d)
  end.
