(** * Programs that change the slice of GetKeys and the list of Values (/repo/json/Map.go) *)
From Coq Require Import Ascii String List NArith ZArith Bool.
From Verif Require Import GoStr GoNum GoFloat Heap Common ValueModel ArrayModel MapModel SpecDict SpecWorld SpecValues World ValuesModel
  SpecRelabel RelabelModel SpecHanded.
Import ListNotations.

(** A call or a write into m.GetKeys() (Map.go:575-577, RelabelModel.v), or a call on m.Values()
    (Map.go:1102-1104, ValuesModel.v). *)
Definition run_deed (s : deed) : M out :=
  match s with Name s => run_relabel s | List m t => run_list_call m t end.
Fixpoint run_deeds (ss : list deed) : M (list out) :=
  match ss with
  | [] => ret []
  | s :: t => o <- run_deed s ;; os <- run_deeds t ;; ret (o :: os)
  end.
