(** * C79: the texts of Parse's errors *)
From Coq Require Import Ascii String List NArith ZArith Bool Lia.
From Verif Require Import GoStr GoNum GoFloat Heap Common ParserModel SpecDict SpecNum SpecFloat SpecDoc SpecText SpecToken SpecParse
  SpecPanic SpecWorld Inv World Reach SpecScalar SpecEvery MessageModel SpecMessage MessageFacts MessageTop ExampleMessage.
Import ListNotations.

(** Every message of Parse, in order: about the braces at the ends, or about the values as
    they are read, or about brackets and quotes that do not add up.  [D] writes numbers in
    decimal digits, [V] gives the messages about the bytes of a value. *)
Theorem c79_messages : forall X h s D V,
  reachable X h -> panics_on s = false -> decimals D ->
  (forall v, In (Holds v) (events s) -> value_says D v (V v)) ->
  exists r h' o, Parse X s h = Ok (r, h') /\ Parse_says X s h = Ok ((o, told D V s), h') /\ same_answer D r o (told D V s).
Proof. exact all_messages. Qed.

Theorem c79_panic : forall X h s, reachable X h -> panics_on s = true -> Parse_says X s h = Panic.
Proof. exact messages_panic. Qed.

(** The bytes of a value determine the messages about it. *)
Theorem c79_total : forall D v, decimals D -> exists ms, value_says D v ms.
Proof. exact value_says_total. Qed.

Theorem c79_unique : forall D v ms ms', decimals D -> value_says D v ms -> value_says D v ms' -> ms = ms'.
Proof. exact value_says_fun. Qed.

Example c79_ex :
  decimals say_int /\ (forall v, value_says say_int v (val_says v))
  /\ bad_text = lit "{""a"":1e5, ""b"":--1.2.3, ""c"":[1.5x, -, 99999999999999999999x], ""d"":x""y""}"
  /\ panics_on bad_text = false
  /\ told say_int val_says bad_text
     = [lit "error: strconv.ParseUint(*string_value, 10, 64) error strconv.ParseUint: parsing ""1e5"": invalid syntax";
        lit "error: value contained 2 negative symbols expected 1";
        lit "error: value contained 2 decimal points expected 1";
        lit "error: strconv.ParseFloat(*string_value, 64) error";
        lit "error: strconv.ParseInt(*string_value, 10, 64) error";
        lit "error: strconv.ParseUint(*string_value, 10, 64) error strconv.ParseUint: parsing ""99999999999999999999x"": value out of range";
        lit "error: value does not start with  "" and/or end with "" value: 'x""y""'"]
  /\ forall X h, reachable X h -> exists h', Parse_says X bad_text h = Ok ((None, told say_int val_says bad_text), h').
Proof. exact (conj say_decimals (conj val_exists (conj eq_refl ex_bad))). Qed.

(** Two objects, an array that stays open, a quotation that stays open, bytes that are not
    ASCII, the empty text. *)
Example c79_more :
  told say_int val_says (lit "{""a"":1},{}") = [lit "error: list is empty"]
  /\ told say_int val_says (lit "{""a"":[1}") = [lit "error: opening and closing squares [] do not match, opening: 1 closing: 0"]
  /\ told say_int val_says (lit "{""a"":""b}")
     = [lit "error: opening and closing brackets {} do not match, opening: 1 closing: 0";
        lit "error: opening and closing quotes do not match, opening: 2 closing: 1"]
  /\ told say_int val_says (lit "{""a"":" ++ ["195"%char; "169"%char; "001"%char] ++ lit "}")
     = [lit "error: strconv.ParseUint(*string_value, 10, 64) error strconv.ParseUint: parsing """
        ++ ["195"%char; "131"%char; "194"%char; "169"%char; c_bs] ++ lit "x01"": invalid syntax"]
  /\ told say_int val_says [] = [lit "error: value empty string"; lit "error: json does not start with {"; lit "error: json does not end with }"].
Proof. exact ex_more. Qed.

Print Assumptions c79_messages.
Print Assumptions c79_panic.
Print Assumptions c79_total.
Print Assumptions c79_unique.
