(** * Specification: programs that sort the slice of keys that GetKeys returns

    GetKeys hands out the slice of the map itself, so sorting it, or bringing it into any
    other order, brings the map into that order. *)
From Coq Require Import Ascii String List NArith ZArith Bool Permutation.
From Verif Require Import GoStr GoNum GoFloat Heap SpecDict SpecWorld SpecValues.
Import ListNotations.

(** A program makes calls, changes lists returned by Values() (SpecValues.v), and brings
    the slice m.GetKeys() into another order. *)
Inductive act :=
| Do (s : step)
| Order (m : nat) (ks : list str).

(** The same entries in the order of [ks]. *)
Definition reorder (d : dict (option nat)) (ks : list str) : dict (option nat) :=
  map (fun k => (k, the None (dict_get d k))) ks.

Definition ok_act (w : world) (a : act) : Prop :=
  match a with
  | Do s => ok_step w s
  | Order m ks => has (w_map w) m /\ Permutation (dict_keys (map_at w m)) ks
  end.
(** Only the order of the entries of the map changes; the list that Values() returns stays
    as it is. *)
Definition spec_act (a : act) (w : world) (vs : lists) : out * world * lists :=
  match a with
  | Do s => spec_step s w vs
  | Order m ks => (ODone, set_map w m (reorder (map_at w m) ks), vs)
  end.
Fixpoint spec_acts (ss : list act) (w : world) (vs : lists) : list out * world * lists :=
  match ss with
  | [] => ([], w, vs)
  | s :: t => let '(o, w1, vs1) := spec_act s w vs in
              let '(os, w2, vs2) := spec_acts t w1 vs1 in (o :: os, w2, vs2)
  end.
Fixpoint ok_acts (ss : list act) (w : world) (vs : lists) : Prop :=
  match ss with
  | [] => True
  | s :: t => ok_act w s /\ let '(_, w1, vs1) := spec_act s w vs in ok_acts t w1 vs1
  end.

(** The same objects with the same content. *)
Definition same_world (w w' : world) : Prop :=
  (forall l, w_map w l = w_map w' l) /\ (forall l, w_arr w l = w_arr w' l)
  /\ (forall l, w_val w l = w_val w' l) /\ (forall l, w_var w l = w_var w' l).
