(** * Readers of the text that ToJSONString writes: C71 *)
From Coq Require Import Ascii String List NArith ZArith Bool Lia.
From Verif Require Import GoStr GoNum GoFloat Heap Common ValueModel ArrayModel MapModel JsonModel SpecNum SpecWorld World Reach
  SpecFloat SpecUtf8 SpecDoc SpecToken SpecRender SpecJson SpecRfc SpecReader ReaderFacts ReaderExamples ExampleJson.
Import ListNotations.

(** A text says one thing at most. *)
Theorem c71_one_reading : forall s v v', says_value s v -> says_value s v' -> v = v'.
Proof. exact says_unique. Qed.

(** ToJSONString writes one text. *)
Theorem c71_writes : forall X h F i d b,
  reachable X h -> escape_ok X -> rep_obj (x_typed_nil X) (view h) F i d -> proper (x_is64 X) d ->
  (exists l, i = IMap l \/ i = IArr l) ->
  exists s, writes X h i b s /\ forall s', writes X h i b s' -> s' = s.
Proof. exact writes_one. Qed.

(** No string can change what a reader takes for the structure: if the text is JSON at all,
    it has the members and elements of the document, and each string and number as it was
    written at its place. *)
Theorem c71_structure : forall X h F i d b s,
  reachable X h -> escape_ok X -> rep_obj (x_typed_nil X) (view h) F i d -> proper (x_is64 X) d ->
  (exists l, i = IMap l \/ i = IArr l) -> writes X h i b s -> json_text s ->
  exists v, says_value s v /\ keeps d v.
Proof. exact writes_keeps. Qed.

(** The text is JSON exactly if floats are finite and each string is a JSON string as written. *)
Theorem c71_valid : forall X h F i d b s,
  reachable X h -> escape_ok X -> rep_obj (x_typed_nil X) (view h) F i d -> proper (x_is64 X) d ->
  (exists l, i = IMap l \/ i = IArr l) -> writes X h i b s ->
  (json_text s <-> lawful d).
Proof. exact writes_lawful. Qed.

(** A reader gets the document from it exactly if floats are finite and strings are UTF-8
    texts without backslashes and control characters. *)
Theorem c71_reads : forall X h F i d b s,
  reachable X h -> escape_ok X -> rep_obj (x_typed_nil X) (view h) F i d -> proper (x_is64 X) d ->
  (exists l, i = IMap l \/ i = IArr l) -> writes X h i b s ->
  ((exists v, says_value s v /\ conveys d v) <-> valid d).
Proof. exact writes_conveys. Qed.

(** The text of a string of a backslash and an n is JSON, but says something else. *)
Theorem c71_misread_refuted : exists h d s v,
  reachable std_ext h /\ rep_obj (x_typed_nil std_ext) (view h) (fun _ => True) (IMap 1) d /\ proper (x_is64 std_ext) d
  /\ writes std_ext h (IMap 1) [] s /\ says_value s v /\ ~ conveys d v.
Proof. exact misread_example. Qed.

(** Strings made to add a member to the text of the map: the text is not JSON. *)
Example c71_ex_hostile : exists h d s,
  reachable std_ext h /\ rep_obj (x_typed_nil std_ext) (view h) (fun _ => True) (IMap 1) d /\ proper (x_is64 std_ext) d
  /\ d = DMap [(lit "k", DScal (SStr (lit "\"",""admin"":true,""x"":""\"))); (lit "l", DArr [DScal (SStr (lit ":true,"))])]
  /\ writes std_ext h (IMap 1) [] s /\ ~ json_text s.
Proof. exact hostile_example. Qed.

Example c71_ex : exists h d s,
  reachable std_ext h /\ escape_ok std_ext /\ rep_obj (x_typed_nil std_ext) (view h) (fun _ => True) (IMap 1) d
  /\ proper (x_is64 std_ext) d /\ valid d /\ writes std_ext h (IMap 1) [] s
  /\ s = lit "{""k\"""":""a\""b"",""l"":[-5,null]}".
Proof. exact reader_example. Qed.

Print Assumptions c71_one_reading.
Print Assumptions c71_writes.
Print Assumptions c71_structure.
Print Assumptions c71_valid.
Print Assumptions c71_reads.
Print Assumptions c71_misread_refuted.
