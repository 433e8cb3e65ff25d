(** * C78: programs that run at the same time *)
From Coq Require Import Ascii String List NArith ZArith Bool Lia.
From Verif Require Import GoStr GoNum GoFloat Heap Common ParserModel JsonModel TimeModel SpecDict SpecWorld Inv World Reach
  SpecAlike ClientModel TeamModel TeamFacts ExampleAlike ExampleTeam.
Import ListNotations.

(** Programs whose objects do not hold each other, and programs that share objects but only
    read, take turns in any order: each sees what it sees when it runs alone for as many calls. *)
Theorem c78_unnoticed : forall X L h members sched i c t S,
  prints_no_address X -> reachable X h -> good_team h members -> nth_error members i = Some (c, t, S) ->
  exists g, nth_error (fst (team X L sched (map begin members) h)) i = Some g
    /\ g_seen g = fst (play X L (count_occ Nat.eq_dec sched i) c [] t h).
Proof. exact team_unnoticed'. Qed.

(** The calls that only read change no object that exists, in every state, reachable or not. *)
Theorem c78_reads : forall X L q h r h',
  only_reads q = true -> ask X L q h = Ok (r, h') ->
  forall a, a < length h -> nth_error h' a = nth_error h a.
Proof. exact ask_keeps. Qed.

(** A program that shares an object with one that changes it notices. *)
Theorem c78_sharing_refuted : ~ (forall X L h members sched i c t S,
  prints_no_address X -> reachable X h ->
  (forall i c t S, nth_error members i = Some (c, t, S) -> self_contained (view h) S /\ incl t S) ->
  nth_error members i = Some (c, t, S) ->
  exists g, nth_error (fst (team X L sched (map begin members) h)) i = Some g
    /\ g_seen g = fst (play X L (count_occ Nat.eq_dec sched i) c [] t h)).
Proof. exact sharing_refuted. Qed.

(** One program changes a map that holds itself, two clone and print another one. *)
Example c78_ex : forall L,
  prints_no_address std_ext /\ reachable std_ext two_maps /\ good_team two_maps three
  /\ map g_seen (fst (team std_ext L [1; 0; 2; 1; 0; 2; 2; 1] (map begin three) two_maps))
     = [[Ok (FOut ODone, []); Ok (FOut (OKeys [lit "b"; lit "n"]), [])];
        [Ok (FOut (OKeys [lit "a"]), []); Ok (FLoc (GVal 0), [1]); Ok (FText (Some (lit "{""a"":true}"), []), [])];
        [Ok (FOut (OKeys [lit "a"]), []); Ok (FLoc (GVal 0), [1]); Ok (FText (Some (lit "{""a"":true}"), []), [])]].
Proof. exact ex_three. Qed.

Print Assumptions c78_unnoticed.
Print Assumptions c78_reads.
Print Assumptions c78_sharing_refuted.
