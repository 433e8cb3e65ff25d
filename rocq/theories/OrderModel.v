(** * Programs that sort the slice returned by GetKeys (/repo/json/Map.go) *)
From Coq Require Import Ascii String List NArith ZArith Bool.
From Verif Require Import GoStr GoNum GoFloat Heap Common ValueModel ArrayModel MapModel SpecDict SpecWorld SpecValues World ValuesModel
  KeysSlice SpecOrder.
Import ListNotations.

(** Writes of the program to the elements of m.GetKeys(), after which [internal_keys]
    (Map.go:174, returned by Map.go:196-198,575-577) holds [ks].  The table [internal_map] and the
    list [internal_keys_obj] are not written. *)
Definition run_order (m : loc) (ks : list str) : M out :=
  fun h => match rd_map h m with
           | Ok mo => (wr m (CMap (MObj (m_tbl mo) ks (m_vals mo))) ;; ret ODone) h
           | _ => Stuck
           end.
Definition run_act (a : act) : M out :=
  match a with Do s => run_step s | Order m ks => run_order m ks end.
Fixpoint run_acts (ss : list act) : M (list out) :=
  match ss with
  | [] => ret []
  | s :: t => o <- run_act s ;; os <- run_acts t ;; ret (o :: os)
  end.

(** [for i, k := range ks { s[i] = k }] on the slice with its backing array (KeysSlice.v): what a sort
    has written when it is done. *)
Fixpoint k_writes (s : slice) (i : nat) (ks : list str) (K : kmap) : kmap :=
  match ks with [] => K | k :: t => k_writes s (S i) t (k_write s i k K) end.
