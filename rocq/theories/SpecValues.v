(** * Specification: programs that also change the list returned by Values()

    The list belongs to the map: it is not one of the arrays of the program (a program
    can call its methods, but in the histories of SpecWorld it does not).  Here it
    does: besides the calls of SpecWorld a program may append to the list, set and
    remove its elements. *)
From Coq Require Import Ascii String List NArith ZArith Bool.
From Verif Require Import GoStr GoNum GoFloat Heap SpecDict SpecWorld.
Import ListNotations.

Inductive list_call :=
| LAppendValue (o : option nat)              (* AppendValue(o) *)
| LSetValueAtIndex (n : Z) (o : option nat)
| LRemoveValueAtIndex (n : Z).
Inductive step :=
| Call (c : api)
| OnValues (m : nat) (t : list_call).        (* the call on m.Values() *)

(** The calls of the program without those on value lists. *)
Definition calls_of (ss : list step) : list api :=
  flat_map (fun s => match s with Call c => [c] | OnValues _ _ => [] end) ss.

Definition ok_step (w : world) (s : step) : Prop :=
  match s with
  | Call c => ok_call w c
  | OnValues m (LAppendValue o) | OnValues m (LSetValueAtIndex _ o) => has (w_map w) m /\ ok_value_handle w o
  | OnValues m (LRemoveValueAtIndex _) => has (w_map w) m
  end.

(** The value lists, by the map they belong to. *)
Definition lists := nat -> list (option nat).
Definition lput (vs : lists) (m : nat) (l : list (option nat)) : lists := fun x => if Nat.eqb x m then l else vs x.

(** Setting a key appends to the list or sets the element at the position of the key, if
    the list has one; removing a key removes the element at that position. *)
Fixpoint key_position (ks : list str) (k : str) : option nat :=
  match ks with
  | [] => None
  | x :: t => if str_eqb x k then Some 0%nat else option_map S (key_position t k)
  end.
Definition list_after_set (d : dict (option nat)) (k : str) (o : option nat) (l : list (option nat)) :=
  match key_position (dict_keys d) k with
  | Some n => list_set l n o
  | None => l ++ [o]
  end.
Definition list_after_remove (d : dict (option nat)) (k : str) (l : list (option nat)) :=
  match key_position (dict_keys d) k with
  | Some n => list_remove l n
  | None => l
  end.

Definition lists_after_call (c : api) (w : world) (vs : lists) : lists :=
  match c with
  | ANewMap => lput vs (S (w_next w)) []
  | AMapSetValue m k o => lput vs m (list_after_set (map_at w m) k o (vs m))
  | AMapSet m k _ => lput vs m (list_after_set (map_at w m) k (Some (w_next w)) (vs m))
  | AMapSetScalarValue m k _ => lput vs m (list_after_set (map_at w m) k (Some (S (w_next w))) (vs m))
  | AMapRemoveKey m k => lput vs m (list_after_remove (map_at w m) k (vs m))
  | _ => vs
  end.

(** A program: results, final world, final lists.  The world is changed by the calls
    only, the result of a call depends on the world only, except for Values() itself. *)
Definition spec_step (s : step) (w : world) (vs : lists) : out * world * lists :=
  match s with
  | Call (AMapValues m) => (OElems (vs m), w, vs)
  | Call c => let (o, w1) := spec_call c w in (o, w1, lists_after_call c w vs)
  | OnValues m (LAppendValue o) => (ODone, w, lput vs m (vs m ++ [o]))
  | OnValues m (LSetValueAtIndex n o) =>
      if valid_index (vs m) n then (OFlag true false, w, lput vs m (list_set (vs m) (Z.to_nat n) o))
      else (OFlag false true, w, vs)
  | OnValues m (LRemoveValueAtIndex n) =>
      if valid_index (vs m) n then (OFlag true false, w, lput vs m (list_remove (vs m) (Z.to_nat n)))
      else (OFlag false true, w, vs)
  end.
Fixpoint spec_steps (ss : list step) (w : world) (vs : lists) : list out * world * lists :=
  match ss with
  | [] => ([], w, vs)
  | s :: t => let '(o, w1, vs1) := spec_step s w vs in
              let '(os, w2, vs2) := spec_steps t w1 vs1 in (o :: os, w2, vs2)
  end.
Fixpoint ok_steps (ss : list step) (w : world) (vs : lists) : Prop :=
  match ss with
  | [] => True
  | s :: t => ok_step w s /\ let '(_, w1, vs1) := spec_step s w vs in ok_steps t w1 vs1
  end.

(** Before any such call the list of a map holds the values of its entries. *)
Definition lists_of (w : world) : lists := fun m => dict_values (map_at w m).
