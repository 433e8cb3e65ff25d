(** * Programs that write other strings into the slice returned by GetKeys (/repo/json/Map.go) *)
From Coq Require Import Ascii String List NArith ZArith Bool.
From Verif Require Import GoStr GoNum GoFloat Heap Common ValueModel ArrayModel MapModel SpecDict SpecWorld World SpecRelabel.
Import ListNotations.

(** [m.GetKeys()[i] = k]: GetKeys returns [internal_keys] itself (Map.go:174,196-198,575-577), so the
    write changes an element of it; out of range it panics.  The table [internal_map] and the list
    [internal_keys_obj] are not written.  That the slice has just been taken is what makes it the one
    of the map; for slices taken earlier see KeysSlice.v. *)
Definition run_write (m : loc) (i : nat) (k : str) : M out :=
  fun h => match rd_map h m with
           | Ok mo => if Nat.ltb i (length (m_keys mo))
                      then (wr m (CMap (MObj (m_tbl mo) (upd (m_keys mo) i k) (m_vals mo))) ;; ret ODone) h
                      else Panic
           | _ => Stuck
           end.
Definition run_relabel (s : relabel) : M out :=
  match s with Rcall c => run_call c | Rwrite m i k => run_write m i k end.
Fixpoint run_relabels (ss : list relabel) : M (list out) :=
  match ss with
  | [] => ret []
  | s :: t => o <- run_relabel s ;; os <- run_relabels t ;; ret (o :: os)
  end.
