(** * Programs that call the methods of the list returned by Values() *)
From Coq Require Import Ascii String List NArith ZArith Bool.
From Verif Require Import GoStr GoNum GoFloat Heap Common ValueModel ArrayModel MapModel SpecDict SpecWorld SpecValues World.
Import ListNotations.

(** The call on m.Values() (Map.go:1102-1104): AppendValue, SetValueAtIndex and
    RemoveValueAtIndex (Array.go:188-211,412-419) of the map's private array.  AppendT(x) is
    AppendValue of a new Value (Array.go:247-411). *)
Definition run_list_call (m : loc) (t : list_call) : M out :=
  a <- mlift (fun h => map_Values h m) ;;
  match t with
  | LAppendValue o => arr_AppendValue a o ;; ret ODone
  | LSetValueAtIndex n o => e <- arr_SetValueAtIndex a n o ;; ret (flag e)
  | LRemoveValueAtIndex n => e <- arr_RemoveValueAtIndex a n ;; ret (flag e)
  end.
(** One step, and a program of steps. *)
Definition run_step (s : step) : M out :=
  match s with Call c => run_call c | OnValues m t => run_list_call m t end.
Fixpoint run_steps (ss : list step) : M (list out) :=
  match ss with
  | [] => ret []
  | s :: t => o <- run_step s ;; os <- run_steps t ;; ret (o :: os)
  end.
