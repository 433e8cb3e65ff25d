(** * Specification: insertion-ordered dictionaries and lists

    Independent of the model. *)
From Coq Require Import Ascii String List NArith ZArith Bool.
From Verif Require Import GoStr.
Import ListNotations.

Section Dict.
  Context {V : Type}.

  (** A dictionary: entries in insertion order, keys distinct. *)
  Definition dict := list (str * V).

  Definition dict_ok (d : dict) : Prop := NoDup (map fst d).

  (** Lookup: the first entry with the key. *)
  Fixpoint dict_get (d : dict) (k : str) : option V :=
    match d with
    | [] => None
    | (k', v) :: t => if str_eqb k' k then Some v else dict_get t k
    end.

  (** Overwriting keeps the position, a new key goes last. *)
  Fixpoint dict_set (d : dict) (k : str) (v : V) : dict :=
    match d with
    | [] => [(k, v)]
    | (k', v') :: t => if str_eqb k' k then (k', v) :: t else (k', v') :: dict_set t k v
    end.

  (** Removal keeps the order of the other entries. *)
  Fixpoint dict_remove (d : dict) (k : str) : dict :=
    match d with
    | [] => []
    | (k', v') :: t => if str_eqb k' k then t else (k', v') :: dict_remove t k
    end.

  Definition dict_keys (d : dict) : list str := map fst d.
  Definition dict_values (d : dict) : list V := map snd d.
  Definition dict_has (d : dict) (k : str) : bool :=
    match dict_get d k with Some _ => true | None => false end.
End Dict.
Arguments dict : clear implicits.

Section ListSpec.
  Context {V : Type}.
  Local Open Scope Z_scope.

  Definition valid_index (l : list V) (i : Z) : bool :=
    (0 <=? i) && (i <? Z.of_nat (length l)).

  (** Replace the [n]-th element. *)
  Fixpoint list_set (l : list V) (n : nat) (x : V) : list V :=
    match l, n with
    | [], _ => []
    | _ :: t, O => x :: t
    | y :: t, S n' => y :: list_set t n' x
    end.

  (** Remove the [n]-th element. *)
  Fixpoint list_remove (l : list V) (n : nat) : list V :=
    match l, n with
    | [], _ => []
    | _ :: t, O => t
    | y :: t, S n' => y :: list_remove t n'
    end.
End ListSpec.
