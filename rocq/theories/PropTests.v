(** * C83: the tests and the main program of the project succeed in every state *)
From Coq Require Import Ascii String List NArith ZArith Bool.
From Verif Require Import GoStr Heap Common SpecWorld World Reach MainModel MainFacts TestKit TestSuiteValues TestSuiteArrays
  SpecAlike ClientModel ExampleAlike.
Import ListNotations.

(** Each of the tests of /repo/tests passes whatever the library was used for before, so they
    pass in every order and however often. *)
Theorem c83_tests : forall h t, In t (suite_values ++ suite_arrays) -> t h = true.
Proof. exact suite_passes. Qed.

(** main returns, in every environment, and leaves all objects as they are. *)
Theorem c83_main : forall X h,
  exists h', main X h = Ok (tt, h') /\ forall n, n < length h -> nth_error h' n = nth_error h n.
Proof. exact main_returns. Qed.

(** The suite has 198 tests; in a state with other objects a test fails if it parses another text. *)
Example c83_ex :
  length (suite_values ++ suite_arrays) = 198
  /\ reachable std_ext detour
  /\ TestCanParseBoolTrue detour = true
  /\ ParseJSONSuccessfully detour (lit "{""key"":true}") (fun h m => HasKey h m (lit "key")) = true
  /\ ParseJSONSuccessfully detour (lit "{""kez"":true}") (fun h m => HasKey h m (lit "key")) = false
  /\ ParseJSONSuccessfully detour (lit "{""key"":tru}") (fun h m => HasKey h m (lit "key")) = false.
Proof. exact (conj eq_refl (conj (detour_reachable std_ext) (conj eq_refl (conj eq_refl (conj eq_refl eq_refl))))). Qed.

Print Assumptions c83_tests.
Print Assumptions c83_main.
