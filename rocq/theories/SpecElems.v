(** * Specification: a copied slice of the elements of an array *)
From Coq Require Import List Bool Arith ZArith.
From Verif Require Import SpecDict SpecWorld KeysSlice ElemSlice.
Import ListNotations.

(** What the first [k] elements of the memory [B] become when the array, the first [n]
    elements of [B], is changed by [os].  The array leaves [B] when it is appended to and fills
    [B]; from then on nothing changes. *)
Fixpoint seen (k : nat) (B : list (option nat)) (n : nat) (os : list eop) : list (option nat) :=
  match os with
  | [] => firstn k B
  | EAppend x :: t => if Nat.ltb n (length B) then seen k (list_set B n x) (S n) t else firstn k B
  | ESet i x :: t => seen k (if valid_index (firstn n B) i then list_set B (Z.to_nat i) x else B) n t
  | ERemove i :: t =>
      if valid_index (firstn n B) i
      then seen k (list_remove (firstn n B) (Z.to_nat i) ++ skipn (n - 1) B) (n - 1) t
      else seen k B n t
  end.

(** The changes as operations on lists. *)
Definition elem_step (l : list (option nat)) (o : eop) : list (option nat) :=
  match o with
  | EAppend x => l ++ [x]
  | ESet n x => if valid_index l n then list_set l (Z.to_nat n) x else l
  | ERemove n => if valid_index l n then list_remove l (Z.to_nat n) else l
  end.

(** Nothing but appends. *)
Definition appends (os : list eop) : Prop := Forall (fun o => exists x, o = EAppend x) os.

(** What a loop that removes the elements with p leaves: the element behind a removed one is
    not looked at. *)
Fixpoint skips {A} (p : A -> bool) (l : list A) : list A :=
  match l with
  | [] => []
  | x :: t => if p x then match t with [] => [] | y :: t' => y :: skips p t' end else x :: skips p t
  end.

(** The slice lies in its backing array. *)
Definition within (mem : vmem) (s : slice) : Prop :=
  s_base s < length mem /\ s_len s <= s_cap s
  /\ length (nth (s_base s) mem []) = s_cap s.
Definition evalid (E : elems) : Prop := within (e_mem E) (e_values E).

(** No two elements with p stand one behind the other. *)
Fixpoint apart {A} (p : A -> bool) (l : list A) : Prop :=
  match l with
  | x :: t => match t with y :: _ => ~ (p x = true /\ p y = true) | [] => True end /\ apart p t
  | [] => True
  end.
