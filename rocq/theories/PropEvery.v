(** * C76: what Parse makes of every text *)
From Coq Require Import Ascii String List NArith ZArith Bool Lia.
From Verif Require Import GoStr GoNum GoFloat Heap Common ParserModel JsonModel SpecDict SpecNum SpecWorld Inv World Reach
  SpecFloat SpecDoc SpecText SpecToken SpecParse SpecPanic SpecScalar SpecEvery PanicFacts EveryFacts EveryTop.
Import ListNotations.

(** The result of Parse on every text, well-formed or not: a panic, or what the reports of
    the reader add up to. *)
Theorem c76_outcome : forall X h s r,
  reachable X h ->
  (parses X h s r
   <-> panics_on s = false
       /\ exists V, (forall v, In (Holds v) (events s) -> value_means v (V v)) /\ r = verdict V s).
Proof. exact every_outcome. Qed.

Theorem c76_panic : forall X h s, reachable X h -> (Parse X s h = Panic <-> panics_on s = true).
Proof. exact parse_panics_iff. Qed.

(** Every value denotes one thing. *)
Theorem c76_total : forall v, exists r, value_means v r.
Proof. exact value_total. Qed.

Theorem c76_unique : forall v r r', value_means v r -> value_means v r' -> r = r'.
Proof. exact value_fun. Qed.

(** The texts that are accepted. *)
Theorem c76_accepted : forall X h s,
  reachable X h ->
  ((exists d, parses X h s (GVal d))
   <-> (exists t, s = c_lb :: t ++ [c_rb])
       /\ panics_on s = false
       /\ (let (o, q) := outside None false s in
           occurrences c_lb o = occurrences c_rb o /\ occurrences c_ls o = occurrences c_rs o /\ q = false)
       /\ forall a v b, events s = a ++ Holds v :: b -> 0 < depth a /\ forall e, ~ value_means v (TokErr e)).
Proof. exact every_accepted. Qed.

(** A text with stray bytes, a repeated key and brackets that do not match. *)
Example c76_ex :
  odd_text = lit "{x ""a"" y : 1, ""a"" {} : [2,{]}}"
  /\ events odd_text
     = [Opens KObject; Named (lit "a"); Holds (lit "1"); Named (lit "a"); Opens KArray; Holds (lit "2");
        Opens KObject; Closes; Holds []; Closes]
  /\ forall X h, reachable X h ->
       parses X h odd_text (GVal (DMap [(lit "a", DArr [DScal (SInt KUInt8 2); DMap []])])).
Proof. exact (conj eq_refl ex_odd). Qed.

Example c76_values :
  Forall (fun p => value_means (fst p) (snd p))
    [(lit " ""x y"" ", TokDoc (DScal (SStr (lit "x y")))); (lit "x""y", TokErr [EValQuote]); (lit """", TokErr [EValQuote]);
     (lit " t r u e ", TokDoc (DScal (SBool true))); (lit " ", TokNone); (lit "-200", TokDoc (DScal (SInt KInt16 (-200))))].
Proof. exact ex_values. Qed.

Print Assumptions c76_outcome.
Print Assumptions c76_panic.
Print Assumptions c76_total.
Print Assumptions c76_unique.
Print Assumptions c76_accepted.
