(** * The main program returns and changes nothing *)
From Coq Require Import Ascii String List Lia.
From Verif Require Import GoStr Heap Common ValueModel ArrayModel MapModel JsonModel ParserModel MainModel TestKit TestFacts
  TestSuiteValues TestSuiteArrays.
Import ListNotations.

Lemma main_returns X h : exists h', main X h = Ok (tt, h') /\ forall n, n < length h -> nth_error h' n = nth_error h n.
Proof.
  eexists. split; [reflexivity|]. intros n L. rewrite <- ?app_assoc, nth_error_app1; auto.
Qed.
Lemma suite_passes h t : In t (suite_values ++ suite_arrays) -> t h = true.
Proof.
  intros I. apply in_app_or in I as [I|I].
  - exact (proj1 (Forall_forall _ _) (suite_values_passes h) t I).
  - exact (proj1 (Forall_forall _ _) (suite_arrays_passes h) t I).
Qed.
