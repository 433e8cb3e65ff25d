(** * Loops of programs over GetKeys *)
From Coq Require Import Ascii String List NArith ZArith Bool.
From Verif Require Import GoStr Heap MapModel SpecWorld KeysSlice.
Import ListNotations.

(** The statement
      for _, k := range m.GetKeys() { if p(k) { m.RemoveKey(k) } }
    Go evaluates GetKeys once and reads the element i of that slice when its turn comes.
    The keys given to RemoveKey are listed.  [n] rounds are left. *)
Fixpoint range_remove (grow : smem -> nat) (p : str -> bool) (s : slice) (i n : nat) (K : kmap) : list str * kmap :=
  match n with
  | O => ([], K)
  | S n' =>
      let k := nth i (content (k_mem K) s) [] in
      if p k then
        let (ks, K') := range_remove grow p s (S i) n' (k_remove grow k K) in (k :: ks, K')
      else range_remove grow p s (S i) n' K
  end.
Definition loop (grow : smem -> nat) (p : str -> bool) (K : kmap) : list str * kmap :=
  range_remove grow p (k_GetKeys K) 0 (s_len (k_GetKeys K)) K.

(** The statement
      for _, i := range is { a.RemoveValueAtIndex(i) }  *)
Definition removes_at (a : nat) (is : list nat) : list api := map (fun i => AArrRemoveValueAtIndex a (Z.of_nat i)) is.
