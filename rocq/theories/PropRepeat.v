(** * C62: Parse depends on its text only *)
From Coq Require Import Ascii String List NArith ZArith Bool.
From Verif Require Import GoStr GoNum GoFloat Heap Common ValueModel ArrayModel MapModel JsonModel ParserModel ReadModel
  SpecWorld World Reach SpecDoc SpecParse SpecRead SpecTrip SpecRepeat RepeatFacts ExampleState ExampleJson.
Import ListNotations.

(** Whatever was called before, and whatever the library outside answers, the same text
    makes Parse panic, or report the same errors, or return a map of the same document. *)
Theorem c62_text_only : forall X h X' h' s,
  reachable X h -> reachable X' h' ->
  (Parse X s h = Panic <-> Parse X' s h' = Panic) /\ forall r, parses X h s r <-> parses X' h' s r.
Proof. exact parse_same. Qed.

(** Two maps parsed from the same text have the same keys, and every value reached along a
    path in one is reached along that path in the other and reads exactly the same. *)
Theorem c62_reads : forall X h h' s m m' h1 h1',
  reachable X h -> reachable X h' ->
  Parse X s h = Ok (GVal (Some m), h1) -> Parse X s h' = Ok (GVal (Some m'), h1') ->
  same_keys h1 h1' m m'
  /\ forall k p v, go X h1 m (PKey k) p = Ok (GVal (Some v)) ->
       exists v', go X h1' m' (PKey k) p = Ok (GVal (Some v')) /\ reads_same X h1 v h1' v'.
Proof. exact parse_again. Qed.

(** The same text parsed at the start and after other calls. *)
Example c62_ex : exists m h1 m' h1' v,
  reachable std_ext [] /\ reachable std_ext json_state
  /\ Parse std_ext (lit "{""a"":[1,{""b"":1.5}],""c"":""d""}") [] = Ok (GVal (Some m), h1)
  /\ Parse std_ext (lit "{""a"":[1,{""b"":1.5}],""c"":""d""}") json_state = Ok (GVal (Some m'), h1')
  /\ m <> m'
  /\ go std_ext h1 m (PKey (lit "a")) [PIndex 1; PKey (lit "b")] = Ok (GVal (Some v)).
Proof.
  do 5 eexists. split; [apply R_start|]. split; [apply json_reachable|].
  split; [vm_compute; reflexivity|]. split; [vm_compute; reflexivity|]. split; [discriminate|vm_compute; reflexivity].
Qed.

Print Assumptions c62_text_only.
Print Assumptions c62_reads.
