(** * Specification: removing in a loop *)
From Coq Require Import List Bool Arith.
From Verif Require Import GoStr.
Import ListNotations.

(** What a loop over the keys that removes those with p leaves: the key behind a removed one is
    not looked at, except the last of all. *)
Fixpoint leftover {A} (p : A -> bool) (l : list A) : list A :=
  match l with
  | [] => []
  | x :: t =>
      if p x then
        match t with
        | [] => []
        | [y] => if p y then [] else [y]
        | y :: t' => y :: leftover p t'
        end
      else x :: leftover p t
  end.

(** The elements at the positions 1, 3, 5, ... *)
Fixpoint every_second {A} (l : list A) : list A :=
  match l with _ :: y :: t => y :: every_second t | _ => [] end.

(** The elements at the positions that are not selected. *)
Fixpoint unselected {A} (sel : nat -> bool) (i : nat) (l : list A) : list A :=
  match l with
  | [] => []
  | x :: t => if sel i then unselected sel (S i) t else x :: unselected sel (S i) t
  end.

(** No two keys with p stand one behind the other, unless at the end of the list. *)
Fixpoint spaced {A} (p : A -> bool) (l : list A) : Prop :=
  match l with
  | x :: t => match t with y :: _ :: _ => ~ (p x = true /\ p y = true) | _ => True end /\ spaced p t
  | [] => True
  end.
