(** * The slice of elements of an Array, with its backing arrays (/repo/json/Array.go)

    ArrayModel.v keeps the content of [values]; this file keeps the Go slice, because
    GetValues (Array.go:420-422) hands out a pointer to it, and a program that copies the slice
    header ([s := *a.GetValues()], or [range *a.GetValues()]) reads the backing array. *)
From Coq Require Import Ascii String List NArith ZArith Bool.
From Verif Require Import GoStr Heap SpecWorld KeysSlice.
Import ListNotations.

(** The backing arrays; an element is a *Value, nil or not. *)
Definition vmem := list (list (option nat)).

(** The elements [s[0]], ..., [s[len(s)-1]]. *)
Definition v_content (mem : vmem) (s : slice) : list (option nat) := firstn (s_len s) (nth (s_base s) mem []).

(** Overwrite the elements from index [i] on. *)
Definition write_at (l : list (option nat)) (i : nat) (xs : list (option nat)) : list (option nat) :=
  firstn i l ++ xs ++ skipn (i + length xs) l.

(** [append(s, xs...)], as in KeysSlice.v. *)
Definition v_append (grow : vmem -> nat) (mem : vmem) (s : slice) (xs : list (option nat)) : vmem * slice :=
  let n := s_len s + length xs in
  if Nat.leb n (s_cap s) then
    (upd mem (s_base s) (write_at (nth (s_base s) mem []) (s_len s) xs), Slice (s_base s) n (s_cap s))
  else
    let c := Nat.max n (grow mem) in
    (mem ++ [v_content mem s ++ xs ++ repeat None (c - n)], Slice (length mem) n c).

(** [values] of one array, Array.go:93-95. *)
Record elems := Elems { e_mem : vmem; e_values : slice }.
(** Array.go:94. *)
Definition e_new : elems := Elems [[]] (Slice 0 0 0).
Definition e_content (E : elems) : list (option nat) := v_content (e_mem E) (e_values E).

Inductive eop := EAppend (x : option nat) | ESet (n : Z) (x : option nat) | ERemove (n : Z).

(** The index checks of Array.go:188-194 and 201-207. *)
Definition e_index (E : elems) (n : Z) : bool :=
  if (n <? 0)%Z then false else if (Z.of_nat (s_len (e_values E)) - 1 <? n)%Z then false else true.

Definition e_step (grow : vmem -> nat) (o : eop) (E : elems) : elems :=
  let s := e_values E in
  match o with
  | EAppend x => (* a is [values] read through the pointer: [a = append(a, value)], Array.go:413-414 *)
      let (mem, s') := v_append grow (e_mem E) s [x] in Elems mem s'
  | ESet n x => (* [values[index] = value], Array.go:196 *)
      if e_index E n then Elems (upd (e_mem E) (s_base s) (upd (nth (s_base s) (e_mem E) []) (Z.to_nat n) x)) s else E
  | ERemove n => (* [append(values[:index], values[index+1:]...)], Array.go:209 *)
      if e_index E n then
        let (mem, s') := v_append grow (e_mem E) (Slice (s_base s) (Z.to_nat n) (s_cap s))
                           (skipn (S (Z.to_nat n)) (e_content E)) in Elems mem s'
      else E
  end.
Fixpoint e_run (grow : vmem -> nat) (os : list eop) (E : elems) : elems :=
  match os with [] => E | o :: t => e_run grow t (e_step grow o E) end.

(** What a call does to the elements of the array [a]; Append makes a new Value. *)
Definition elem_op (w : world) (a : nat) (c : api) : list eop :=
  match c with
  | AArrAppendValue a' o => if Nat.eqb a' a then [EAppend o] else []
  | AArrAppend a' _ => if Nat.eqb a' a then [EAppend (Some (w_next w))] else []
  | AArrSetValueAtIndex a' n o => if Nat.eqb a' a then [ESet n o] else []
  | AArrRemoveValueAtIndex a' n => if Nat.eqb a' a then [ERemove n] else []
  | _ => []
  end.
Fixpoint elem_ops (a : nat) (cs : list api) (w : world) : list eop :=
  match cs with [] => [] | c :: t => elem_op w a c ++ elem_ops a t (snd (spec_call c w)) end.

(** The statement
      for i, v := range *a.GetValues() { if p(v) { a.RemoveValueAtIndex(i) } }
    The indexes given to RemoveValueAtIndex are listed.  [n] rounds are left. *)
Fixpoint range_elems (grow : vmem -> nat) (p : option nat -> bool) (s : slice) (i n : nat) (E : elems) : list nat * elems :=
  match n with
  | O => ([], E)
  | S n' =>
      if p (nth i (v_content (e_mem E) s) None) then
        let (is, E') := range_elems grow p s (S i) n' (e_step grow (ERemove (Z.of_nat i)) E) in (i :: is, E')
      else range_elems grow p s (S i) n' E
  end.
Definition elem_loop (grow : vmem -> nat) (p : option nat -> bool) (E : elems) : list nat * elems :=
  range_elems grow p (e_values E) 0 (s_len (e_values E)) E.
