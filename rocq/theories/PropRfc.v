(** * C67: Parse and RFC 8259 *)
From Coq Require Import Ascii String List NArith ZArith Bool Lia.
From Verif Require Import GoStr GoNum GoFloat Heap Common ValueModel ArrayModel MapModel JsonModel ParserModel
  SpecDict SpecNum NumLemmas SpecWorld World Reach SpecFloat SpecUtf8 SpecDoc SpecText SpecToken SpecParse ParseTop ParseFacts SpecJson SpecRfc
  RfcFacts RfcExamples ExampleState ExampleText.
Import ListNotations.

(** The values of SpecRfc are those of the grammar of RFC 8259. *)
Theorem c67_grammar : forall s, json_value s <-> exists v, says_value s v.
Proof. exact grammar_iff. Qed.

(** Of the texts of RFC 8259, Parse accepts objects only, and these without blanks
    around them. *)
Theorem c67_objects : forall X h s m h',
  reachable X h -> json_text s -> Parse X s h = Ok (GVal m, h') -> exists ms, says_value s (VObject ms).
Proof. exact rfc_objects. Qed.

(** If no string ends in a backslash and exponents are small, Parse accepts the object
    exactly when the numbers are integers in range or are written with a point and without
    a negative exponent, and do not overflow. *)
Theorem c67_accepts : forall X h s ms,
  reachable X h -> says_value s (VObject ms) -> Forall closes (strings (VObject ms)) -> Forall small_exponent (numbers (VObject ms)) ->
  ((exists d, parses X h s (GVal d)) <-> Forall readable (numbers (VObject ms))).
Proof. exact rfc_accepts. Qed.

(** The map holds what the text says if the strings are ASCII with no escapes but those of
    quotation marks, and no key of an array or object contains a quotation mark. *)
Theorem c67_conforms : forall X h s ms,
  reachable X h -> says_value s (VObject ms) -> Forall simple (strings (VObject ms)) ->
  Forall readable (numbers (VObject ms)) -> (forall k, In k (container_keys (VObject ms)) -> ~ In c_dq k) ->
  exists d, parses X h s (GVal d) /\ agrees (VObject ms) d.
Proof. exact rfc_conforms. Qed.

(** Without these conditions it is false: [rejected] texts of RFC 8259 are not accepted,
    and the map of a [misread] object does not hold what the text says. *)
Theorem c67_rejects_refuted : Forall rejected
  [lit "[1]"; lit "{} "; lit "{""a"":1e2}"; lit "{""a"":1.0e-2}"; lit "{""a"":18446744073709551616}"; lit "{""a"":""\\""}"].
Proof. exact rfc_rejected. Qed.

Theorem c67_reads_refuted : Forall misread
  [lit "{""a"":""\n""}"; lit "{""a"":""\u0041""}"; lit "{""\"""":[]}"; lit "{""a"":""" ++ utf8 233 ++ lit """}"].
Proof. exact rfc_misread. Qed.

Example c67_ex : exists ms,
  reachable std_ext ex_state /\ says_value ex_rfc (VObject ms) /\ Forall simple (strings (VObject ms))
  /\ Forall readable (numbers (VObject ms)) /\ Forall small_exponent (numbers (VObject ms))
  /\ (forall k, In k (container_keys (VObject ms)) -> ~ In c_dq k) /\ length ms = 4 /\ length (numbers (VObject ms)) = 4.
Proof. exact rfc_example. Qed.

Print Assumptions c67_grammar.
Print Assumptions c67_objects.
Print Assumptions c67_accepts.
Print Assumptions c67_conforms.
Print Assumptions c67_rejects_refuted.
Print Assumptions c67_reads_refuted.
