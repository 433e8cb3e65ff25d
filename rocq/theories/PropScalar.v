(** * C75: every unquoted scalar *)
From Coq Require Import Ascii String List NArith ZArith Bool Lia.
From Verif Require Import GoStr GoNum GoFloat Heap Common ParserModel JsonModel SpecDict SpecNum SpecWorld Inv World Reach
  SpecFloat SpecDoc SpecText SpecToken SpecParse SpecPanic SpecScalar ScalarFacts ScalarRun ScalarTop ParseTop ParseMore ExampleState.
Import ListNotations.

(** The outcome of Parse on every text of the grammar, whatever its scalars. *)
Theorem c75_outcome : forall X h l r,
  reachable X h -> members_ok false l ->
  (parses X h (text_of (JMap l)) r
   <-> exists T, (forall t, In t (tokens_members l) -> scalar_means t (T t)) /\ r = outcome T l).
Proof. exact scalars_outcome. Qed.

(** Every scalar denotes one thing: nothing, a value or errors. *)
Theorem c75_total : forall t, exists r, scalar_means t r.
Proof. exact scalar_total. Qed.

Theorem c75_unique : forall t r r', scalar_means t r -> scalar_means t r' -> r = r'.
Proof. exact scalar_fun. Qed.

(** A text with one member. *)
Theorem c75_member : forall X h k t d,
  reachable X h -> body_ok k -> token_ok false t ->
  (parses X h (text_of (JMap (MCons [] k [] [] (JTok t) [] false (MNil [])))) (GVal (DMap [(unescape (latin1 k), d)]))
   <-> scalar_means t (TokDoc d)).
Proof. exact scalar_member. Qed.

Example c75_ex :
  point_number (lit "1_2.5") 125 10
  /\ text_of (JMap (MCons [] (lit "k") [] [] (JTok (lit "1_2.5")) [] false (MNil []))) = lit "{""k"":1_2.5}"
  /\ body_ok (lit "k") /\ token_ok false (lit "1_2.5").
Proof. exact ex_underscore. Qed.

(** Forms outside JSON. *)
Example c75_forms :
  Forall (fun p => scalar_means (fst p) (snd p))
    [(lit "1_2.5", TokDoc (DScal (SFlt F32 (FFin false 13107200 (-20)))));
     (lit "0x1.8p1", TokDoc (DScal (SFlt F32 (FFin false 12582912 (-22)))));
     (lit "+.5", TokDoc (DScal (SFlt F32 (FFin false 8388608 (-24)))));
     (lit "5.", TokDoc (DScal (SFlt F32 (FFin false 10485760 (-21)))));
     (lit "0x1.8", TokErr [EFloatSyn]);
     (lit "1__2.5", TokErr [EFloatSyn]);
     (lit "1.5e-3", TokErr [ENegPos]);
     (lit "1.5e999", TokErr [EFloatSyn]);
     (lit "1e5", TokErr [EUintSyn]);
     (lit "+1", TokErr [EUintSyn]);
     (lit "1 2", TokDoc (DScal (SInt KUInt8 12)))].
Proof. exact ex_forms. Qed.

Print Assumptions c75_outcome.
Print Assumptions c75_total.
Print Assumptions c75_unique.
Print Assumptions c75_member.
