(** * Specification: histories of the keys of a map *)
From Coq Require Import Ascii String List Bool.
From Verif Require Import GoStr KeysSlice.
Import ListNotations.

(** The slice lies in its backing array. *)
Definition svalid (mem : smem) (s : slice) : Prop :=
  s_base s < length mem /\ s_len s <= s_cap s /\ length (nth (s_base s) mem []) = s_cap s.

Definition kvalid (K : kmap) : Prop := svalid (k_mem K) (k_keys K).

(** No removal that finds its key. *)
Fixpoint no_removal (grow : smem -> nat) (os : list kop) (K : kmap) : Prop :=
  match os with
  | [] => True
  | o :: t => match o with KRemove k => ~ In k (k_content K) | KSet _ => True end
              /\ no_removal grow t (k_step grow o K)
  end.
