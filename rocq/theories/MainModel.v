(** * The main program *)
From Coq Require Import Ascii String List.
From Verif Require Import GoStr Heap Common MapModel JsonModel ParserModel.
Import ListNotations.

(** main, main.go:7-9.  It drops what Parse returns. *)
Definition main (X : ext) : M unit := _ <- Parse X (lit "{}") ;; ret tt.
