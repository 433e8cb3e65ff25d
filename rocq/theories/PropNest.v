(** * C74: object texts inside other texts *)
From Coq Require Import Ascii String List NArith ZArith Bool.
From Verif Require Import GoStr GoNum GoFloat Heap Common ValueModel ArrayModel MapModel JsonModel ParserModel
  SpecDict SpecNum SpecWorld World Reach SpecFloat SpecDoc SpecText SpecParse SpecPanic SpecRender SpecRound SpecNormal SpecNest
  Inv TreeParser ParseFacts RoundFacts NormalFacts NestFacts WholeFacts ExampleState ExampleJson PropNormal.
Import ListNotations.

(** Inside a text, where a value may begin, a whole object text may be replaced by any
    other with the same document: the outcome of Parse is the same. *)
Theorem c74_replace : forall X h p q s s' d,
  reachable X h -> before_value p -> whole s -> whole s' ->
  parses X h s (GVal d) -> parses X h s' (GVal d) ->
  (Parse X (p ++ s ++ q) h = Panic <-> Parse X (p ++ s' ++ q) h = Panic)
  /\ forall r, parses X h (p ++ s ++ q) r <-> parses X h (p ++ s' ++ q) r.
Proof. exact replace_text. Qed.

(** In particular by what parsing and writing makes of it. *)
Theorem c74_rewritten : forall X h p q s d t,
  escape_ok X -> reachable X h -> before_value p -> whole s ->
  parses X h s (GVal d) -> writable d -> exact d -> rewrites X s t ->
  (Parse X (p ++ s ++ q) h = Panic <-> Parse X (p ++ t ++ q) h = Panic)
  /\ forall r, parses X h (p ++ s ++ q) r <-> parses X h (p ++ t ++ q) r.
Proof. exact replace_rewritten. Qed.

(** The texts of the grammar are whole, and so are the texts written by ToJSONString. *)
Theorem c74_grammar : forall l, members_ok false l -> whole (text_of (JMap l)).
Proof. exact grammar_whole. Qed.
Theorem c74_written : forall is64 l t,
  proper is64 (DMap l) -> writable (DMap l) -> shows (DMap l) t -> whole t.
Proof. exact written_whole. Qed.

(** Whole accepted texts put together with quoted keys, colons and commas, or in an array,
    give a whole text, and Parse gives the documents put together. *)
Theorem c74_object : forall X h l ds,
  reachable X h ->
  Forall2 (fun ks d => body_ok (fst ks) /\ whole (snd ks) /\ parses X h (snd ks) (GVal d)) l ds ->
  whole (object_text l) /\ parses X h (object_text l) (GVal (DMap (put_all l ds))).
Proof. exact parse_object. Qed.
Theorem c74_array : forall X h k l ds,
  reachable X h -> body_ok k ->
  Forall2 (fun s d => whole s /\ parses X h s (GVal d)) l ds ->
  whole (object_text [(k, array_text l)])
  /\ parses X h (object_text [(k, array_text l)]) (GVal (DMap [(latin1 k, DArr ds)])).
Proof. exact parse_array. Qed.

(** That the texts need not be whole is false.  The second of two objects is ignored at the
    end of a text, but is an element of its own in an array, and panics in an object. *)
Definition one : str := lit "{""a"":1}".
Definition two : str := lit "{""a"":1}{""b"":2}".
Definition doc_one : doc := DMap [(lit "a", DScal (SInt KUInt8 1))].
Definition doc_two : doc := DMap [(lit "b", DScal (SInt KUInt8 2))].
Theorem c74_trailing_refuted : forall X h, reachable X h ->
  parses X h one (GVal doc_one) /\ parses X h two (GVal doc_one)
  /\ parses X h (object_text [(lit "k", one)]) (GVal (DMap [(lit "k", doc_one)]))
  /\ Parse X (object_text [(lit "k", two)]) h = Panic
  /\ parses X h (object_text [(lit "k", array_text [one])]) (GVal (DMap [(lit "k", DArr [doc_one])]))
  /\ parses X h (object_text [(lit "k", array_text [two])]) (GVal (DMap [(lit "k", DArr [doc_one; doc_two])])).
Proof. exact trailing_objects. Qed.

(** Two spellings of one document, put together and replaced by one another. *)
Definition ex_in : str := lit "{""x"" : 1 2, ""x"":[7,{} ""q\""r""] junk ""e\""e"":{""z"":null}, }".
Definition ex_in2 : str := lit "{""x"":[7,{},""q\""r""],""e\""e"":{""z"":null}}".
Definition ex_in_doc : doc := DMap [(lit "x", DArr [DScal (SInt KUInt8 7); DMap []; DScal (SStr (lit "q""r"))]);
  (lit "e\""e", DMap [(lit "z", DNull)])].
Definition ex_obj : list (str * str) := [(lit "m", ex_in); (lit "n", one); (lit "m", ex_in2)].
Definition ex_pre : str := lit "{ ""l"" : true, ""k"":[1,  ".
Example c74_ex : reachable std_ext ex_state
  /\ whole ex_in /\ whole ex_in2 /\ whole one /\ ~ whole two
  /\ parses std_ext ex_state ex_in (GVal ex_in_doc) /\ parses std_ext ex_state ex_in2 (GVal ex_in_doc)
  /\ Forall2 (fun ks d => body_ok (fst ks) /\ whole (snd ks) /\ parses std_ext ex_state (snd ks) (GVal d))
       ex_obj [ex_in_doc; doc_one; ex_in_doc]
  /\ put_all ex_obj [ex_in_doc; doc_one; ex_in_doc] = [(lit "m", ex_in_doc); (lit "n", doc_one)]
  /\ before_value ex_pre
  /\ parses std_ext ex_state (ex_pre ++ ex_in ++ lit ",2]}")
       (GVal (DMap [(lit "l", DScal (SBool true)); (lit "k", DArr [DScal (SInt KUInt8 1); ex_in_doc; DScal (SInt KUInt8 2)])]))
  /\ (exists d t, parses std_ext ex_state ex_one (GVal d) /\ whole ex_one /\ writable d /\ exact d /\ rewrites std_ext ex_one t)
  /\ (proper true ex_normal_doc /\ writable ex_normal_doc /\ shows ex_normal_doc ex_text).
Proof.
  assert (W1 : whole ex_in) by (eexists _, _; split; [reflexivity|]; vm_compute; split; reflexivity).
  assert (W2 : whole ex_in2) by (eexists _, _; split; [reflexivity|]; vm_compute; split; reflexivity).
  assert (W3 : whole one) by (eexists _, _; split; [reflexivity|]; vm_compute; split; reflexivity).
  assert (P1 : parses std_ext ex_state ex_in (GVal ex_in_doc)) by (apply parses_tree; [apply ex_reachable|vm_compute; reflexivity]).
  assert (P2 : parses std_ext ex_state ex_in2 (GVal ex_in_doc)) by (apply parses_tree; [apply ex_reachable|vm_compute; reflexivity]).
  assert (P3 : parses std_ext ex_state one (GVal doc_one)) by (apply parses_tree; [apply ex_reachable|vm_compute; reflexivity]).
  destruct c73_ex as (_ & _ & Q1 & _ & Q2 & Q3 & Q4 & _).
  split; [apply ex_reachable|]. split; [exact W1|]. split; [exact W2|]. split; [exact W3|].
  split; [intros (t & r & E & O & _); inversion E; subst; vm_compute in O; discriminate|].
  split; [exact P1|]. split; [exact P2|].
  assert (B : forall k, k = lit "m" \/ k = lit "n" -> body_ok k).
  { intros k [-> | ->]; (split; [intros [|? [|? ?]] ? E|intros [|? [|? ?]] E]); discriminate. }
  split. { repeat (constructor; [split; [apply B; auto|split; assumption]|]). constructor. }
  split; [reflexivity|].
  split. { eexists. split; [vm_compute; reflexivity|]. split; [discriminate|]. split; [reflexivity|]. auto. }
  split; [apply parses_tree; [apply ex_reachable|vm_compute; reflexivity]|].
  split. { exists ex_normal_doc, ex_text. split; [exact Q1|].
    split; [eexists _, _; split; [reflexivity|]; vm_compute; split; reflexivity|]. auto. }
  split; [|split]; auto.
  - apply (typed_proper true). eapply parses_typed; [apply ex_reachable|exact Q1].
  - apply (rewrites_doc std_ext ex_state ex_one); auto using ex_reachable. intros k; reflexivity.
Qed.

Print Assumptions c74_replace.
Print Assumptions c74_rewritten.
Print Assumptions c74_grammar.
Print Assumptions c74_written.
Print Assumptions c74_object.
Print Assumptions c74_array.
Print Assumptions c74_trailing_refuted.
