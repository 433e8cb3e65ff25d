(** * Every method is a call of programs *)
From Coq Require Import Ascii String List NArith ZArith Bool.
From Verif Require Import GoStr Heap Common NamedModel NamedFacts MethodTable ClientModel CoverModel.
Import ListNotations.

Lemma same_entries (t u : list entry) :
  forallb (fun e => existsb (entry_eqb e) u) t = true -> forallb (fun e => existsb (entry_eqb e) t) u = true ->
  forall e, In e t <-> In e u.
Proof.
  intros A B e. rewrite forallb_forall in A, B. split; intros I; apply existsb_In; auto.
Qed.
Lemma calls_cover X :
  (forall e, In e map_set <-> In e (map fst (map_calls X)))
  /\ (forall e, In e array_set <-> In e (map fst array_calls))
  /\ (forall e, In e value_set <-> In e (map fst (value_calls X))).
Proof. split; [|split]; apply same_entries; vm_compute; reflexivity. Qed.
