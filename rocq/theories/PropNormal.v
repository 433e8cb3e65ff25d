(** * C73: rewriting a text by Parse and ToJSONString *)
From Coq Require Import Ascii String List NArith ZArith Bool.
From Verif Require Import GoStr GoNum GoFloat Heap Common ValueModel ArrayModel MapModel JsonModel ParserModel
  SpecDict SpecNum SpecWorld World Reach SpecFloat SpecDoc SpecParse SpecRender SpecRound SpecNormal Inv TreeParser ParseFacts
  NormalFacts ExampleState ExampleJson.
Import ListNotations.

(** Parsing an accepted text with a writable document and writing the result gives the
    text of that document.  Doing it again changes nothing. *)
Theorem c73_normal : forall X h s d,
  escape_ok X -> reachable X h -> parses X h s (GVal d) -> writable d ->
  exists t d', rewrites X s t /\ shows d t /\ comes_back d d'
    /\ (forall h', reachable X h' -> parses X h' t (GVal d')) /\ rewrites X t t.
Proof. exact rewrites_normal. Qed.

(** There is at most one such text. *)
Theorem c73_unique : forall X s t t' h,
  reachable X h -> rewrites X s t -> rewrites X s t' -> t = t'.
Proof. exact rewrites_fun. Qed.

(** Two texts are rewritten to the same text exactly when their documents come back as the
    same document. *)
Theorem c73_same : forall X h s s' d d' t t',
  escape_ok X -> reachable X h ->
  parses X h s (GVal d) -> writable d -> parses X h s' (GVal d') -> writable d' ->
  rewrites X s t -> rewrites X s' t' ->
  (t = t' <-> exists e, comes_back d e /\ comes_back d' e).
Proof. exact rewrites_same. Qed.

(** Without floats and negative zeros: exactly when they are the same document. *)
Theorem c73_exact : forall X h s s' d d' t t',
  escape_ok X -> reachable X h ->
  parses X h s (GVal d) -> writable d -> exact d -> parses X h s' (GVal d') -> writable d' -> exact d' ->
  rewrites X s t -> rewrites X s' t' -> (t = t' <-> d = d').
Proof. exact rewrites_exact. Qed.

(** That rewriting always reaches a text that it leaves unchanged is false: a double quote
    in the key of an object or array gains a backslash each time. *)
Theorem c73_grows_refuted : forall X k, escape_ok X -> rewrites X (grow k) (grow (S k)).
Proof. exact grow_rewrites. Qed.

(** Two spellings of one document, one with junk between the members and a repeated key;
    and the text both are rewritten to. *)
Definition ex_normal_doc : doc := DMap [(lit "k", DArr [DScal (SInt KUInt8 12); DScal (SInt KInt8 (-3));
  DMap [(lit "x", DNull)]; DScal (SStr (lit "a""b"))]); (lit "z", DScal (SBool true))].
Definition ex_one : str := lit "{""k"":[ 12,-3 ,{""x"" :null},""a\""b""],""z"":true}".
Definition ex_two : str := lit "{""k"" : [1 2, ""q""] junk ""k"":[12,-3,{""x"":null}""a\""b""] ""z"":false,, ""z"":tr ue }".
Definition ex_text : str := lit "{""k"":[12,-3,{""x"":null},""a\""b""],""z"":true}".
Definition ex_float : str := lit "{""f"": [0.1, 0.00000001, -0, 400000000000000000000000000000000000000.5]}".
Definition ex_float_text : str := lit "{""f"":[0.100000,0.000000,0,399999999999999990995239293824136118272.000000]}".
Example c73_ex : escape_ok std_ext /\ reachable std_ext ex_state
  /\ parses std_ext ex_state ex_one (GVal ex_normal_doc) /\ parses std_ext ex_state ex_two (GVal ex_normal_doc)
  /\ writable ex_normal_doc /\ exact ex_normal_doc
  /\ rewrites std_ext ex_one ex_text /\ rewrites std_ext ex_two ex_text
  /\ (exists d, parses std_ext ex_state ex_float (GVal d) /\ writable d) /\ rewrites std_ext ex_float ex_float_text
  /\ grow 1 = lit "{""\\"""":{}}".
Proof.
  assert (E : escape_ok std_ext) by (intros k; reflexivity).
  assert (P1 : parses std_ext ex_state ex_one (GVal ex_normal_doc)) by (apply parses_tree; [apply ex_reachable|vm_compute; reflexivity]).
  assert (P2 : parses std_ext ex_state ex_two (GVal ex_normal_doc)) by (apply parses_tree; [apply ex_reachable|vm_compute; reflexivity]).
  assert (P3 : exists d, parses std_ext ex_state ex_float (GVal d) /\ shows d ex_float_text /\ writable d).
  { eexists. split; [apply parses_tree; [apply ex_reachable|vm_compute; reflexivity]|].
    split; [|apply writableb_ok; vm_compute; reflexivity].
    match goal with |- shows ?d _ => replace ex_float_text with (RenderFacts.render d) by (vm_compute; reflexivity) end.
    apply (ShowFacts.shows_render true), properb_ok. vm_compute. reflexivity. }
  assert (S : shows ex_normal_doc ex_text).
  { replace ex_text with (RenderFacts.render ex_normal_doc) by (vm_compute; reflexivity).
    apply (ShowFacts.shows_render true), properb_ok. vm_compute. reflexivity. }
  split; auto. split; [apply ex_reachable|]. split; auto. split; auto.
  split; [apply writableb_ok; vm_compute; reflexivity|].
  split. { repeat constructor; try (left; reflexivity); right; cbn; auto. }
  split. { destruct (rewrites_shows _ _ _ _ E (ex_reachable _) P1) as (t & S1 & R1). now rewrite (ShowFacts.shows_fun _ _ _ S S1). }
  split. { destruct (rewrites_shows _ _ _ _ E (ex_reachable _) P2) as (t & S1 & R1). now rewrite (ShowFacts.shows_fun _ _ _ S S1). }
  destruct P3 as (d & P3 & S3 & W3). split; [eauto|].
  split. { destruct (rewrites_shows _ _ _ _ E (ex_reachable _) P3) as (t & S1 & R1). now rewrite (ShowFacts.shows_fun _ _ _ S3 S1). }
  reflexivity.
Qed.

Print Assumptions c73_normal.
Print Assumptions c73_unique.
Print Assumptions c73_same.
Print Assumptions c73_exact.
Print Assumptions c73_grows_refuted.
