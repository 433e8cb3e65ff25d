(** * Specification: concurrent use *)
From Coq Require Import Ascii String List Bool.
From Verif Require Import GoStr Heap MapModel SpecDict ConcModel.
Import ListNotations.

(** The variables of a map hold the dictionary [d]. *)
Definition holds_dict (s : shared) (d : dict (option loc)) : Prop :=
  c_keys s = dict_keys d /\ c_vals s = dict_values d /\ dict_ok d
  /\ forall k, tbl_get (c_tbl s) k = dict_get d k.

(** The variables of map [m] in program state [h]. *)
Definition shared_of (h : heap) (m : loc) : option shared :=
  match nth_error h m with
  | Some (CMap mo) =>
      match nth_error h (m_vals mo) with
      | Some (CArr vs) => Some (Shared (m_tbl mo) (m_keys mo) vs)
      | _ => None
      end
  | _ => None
  end.

Definition finished (ts : list thread) : Prop := Forall (fun t => th_pc t = CDone) ts.

(** Two goroutines are both about to write internal_map. *)
Definition race (ts : list thread) : Prop :=
  exists i j a b, i <> j /\ nth_error ts i = Some a /\ nth_error ts j = Some b
    /\ th_pc a = CWriteTbl /\ th_pc b = CWriteTbl.

(** A schedule in which the goroutines take turns, each making all its accesses at
    once (six at most, further ones do nothing), as under a lock. *)
Definition turns (order : list nat) : list nat := flat_map (fun n => repeat n 6) order.
