(** * Specification: programs that change both things a map hands out

    GetKeys() hands out the slice of names of the map, Values() its list of values.  A program may
    write into the one (SpecRelabel.v) and call the methods of the other (SpecValues.v). *)
From Coq Require Import Ascii String List NArith ZArith Bool.
From Verif Require Import GoStr GoNum GoFloat Heap SpecDict SpecWorld SpecValues SpecRelabel.
Import ListNotations.

Inductive deed :=
| Name (s : relabel)                         (* a call, or m.GetKeys()[i] = k *)
| List (m : nat) (t : list_call).            (* the call on m.Values() *)

(** The calls of the program on the maps, arrays and values themselves. *)
Definition own_calls (ss : list deed) : list api :=
  flat_map (fun s => match s with Name s => without_writes [s] | List _ _ => [] end) ss.

Definition spec_deed (s : deed) (w : world) (ns : names) (vs : lists) : out * world * names * lists :=
  match s with
  | Name s => spec_relabel s w ns vs
  | List m (LAppendValue o) => (ODone, w, ns, lput vs m (vs m ++ [o]))
  | List m (LSetValueAtIndex n o) =>
      if valid_index (vs m) n then (OFlag true false, w, ns, lput vs m (list_set (vs m) (Z.to_nat n) o)) else (OFlag false true, w, ns, vs)
  | List m (LRemoveValueAtIndex n) =>
      if valid_index (vs m) n then (OFlag true false, w, ns, lput vs m (list_remove (vs m) (Z.to_nat n))) else (OFlag false true, w, ns, vs)
  end.
Fixpoint spec_deeds (ss : list deed) (w : world) (ns : names) (vs : lists) : list out * world * names * lists :=
  match ss with
  | [] => ([], w, ns, vs)
  | s :: t => let '(o, w1, ns1, vs1) := spec_deed s w ns vs in
              let '(os, w2, ns2, vs2) := spec_deeds t w1 ns1 vs1 in (o :: os, w2, ns2, vs2)
  end.

Definition ok_deed (s : deed) (w : world) (ns : names) : Prop :=
  match s with
  | Name (Rcall c) => ok_call w c
  | Name (Rwrite m i k) => has (w_map w) m /\ (i < length (ns m))%nat
  | List m (LAppendValue o) | List m (LSetValueAtIndex _ o) => has (w_map w) m /\ ok_value_handle w o
  | List m (LRemoveValueAtIndex _) => has (w_map w) m
  end.
Fixpoint ok_deeds (ss : list deed) (w : world) (ns : names) (vs : lists) : Prop :=
  match ss with
  | [] => True
  | s :: t => ok_deed s w ns /\ let '(_, w1, ns1, vs1) := spec_deed s w ns vs in ok_deeds t w1 ns1 vs1
  end.
