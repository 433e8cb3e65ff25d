(** * Specification: programs that write into the slice behind GetValues *)
From Coq Require Import List ZArith Bool Arith.
From Verif Require Import SpecDict SpecWorld KeysSlice ElemSlice SpecElems PokeModel.
Import ListNotations.

(** What [t] shows after element [n] of the memory of [s] has been set. *)
Definition shown_set (s t : slice) (n : nat) (x : option nat) (l : list (option nat)) : list (option nat) :=
  if Nat.eqb (s_base t) (s_base s) && Nat.ltb n (s_len t) then list_set l n x else l.

(** A program that works on slice [k] and calls methods of the array. *)
Definition own_stmt (k : nat) (o : stmt) : Prop :=
  match o with PCall _ => True | PSet j _ _ | PAppend j _ => j = k | _ => False end.
Fixpoint calls_of (ps : list stmt) : list eop :=
  match ps with [] => [] | PCall o :: t => o :: calls_of t | _ :: t => calls_of t end.
(** What it does to its slice as a list. *)
Definition own_step (l : list (option nat)) (o : stmt) : list (option nat) :=
  match o with PSet _ n x => list_set l n x | PAppend _ x => l ++ [x] | _ => l end.

(** The elements that a statement names. *)
Definition names (P : option nat -> Prop) (o : stmt) : Prop :=
  match o with
  | PCall (EAppend x) | PCall (ESet _ x) | PSet _ _ x | PAppend _ x => P x
  | PMake l => Forall P l
  | _ => True
  end.
