(** * Concrete cases for C79 *)
From Coq Require Import Ascii String List NArith ZArith Bool Lia.
From Verif Require Import GoStr GoNum GoFloat Heap Common ParserModel SpecDict SpecNum SpecFloat SpecDoc SpecText SpecToken SpecParse
  SpecPanic SpecWorld Inv World Reach SpecScalar SpecEvery EveryFacts EveryTop MessageModel SpecMessage MessageFacts MessageTop ExampleState.
Import ListNotations.

Definition bad_text : str :=
  lit "{""a"":1e5, ""b"":--1.2.3, ""c"":[1.5x, -, 99999999999999999999x], ""d"":x""y""}".

Lemma ex_bad :
  panics_on bad_text = false
  /\ told say_int val_says bad_text
     = [lit "error: strconv.ParseUint(*string_value, 10, 64) error strconv.ParseUint: parsing ""1e5"": invalid syntax";
        lit "error: value contained 2 negative symbols expected 1";
        lit "error: value contained 2 decimal points expected 1";
        lit "error: strconv.ParseFloat(*string_value, 64) error";
        lit "error: strconv.ParseInt(*string_value, 10, 64) error";
        lit "error: strconv.ParseUint(*string_value, 10, 64) error strconv.ParseUint: parsing ""99999999999999999999x"": value out of range";
        lit "error: value does not start with  "" and/or end with "" value: 'x""y""'"]
  /\ forall X h, reachable X h -> exists h', Parse_says X bad_text h = Ok ((None, told say_int val_says bad_text), h').
Proof.
  assert (P : panics_on bad_text = false) by (vm_compute; reflexivity).
  assert (T : told say_int val_says bad_text
     = [lit "error: strconv.ParseUint(*string_value, 10, 64) error strconv.ParseUint: parsing ""1e5"": invalid syntax";
        lit "error: value contained 2 negative symbols expected 1";
        lit "error: value contained 2 decimal points expected 1";
        lit "error: strconv.ParseFloat(*string_value, 64) error";
        lit "error: strconv.ParseInt(*string_value, 10, 64) error";
        lit "error: strconv.ParseUint(*string_value, 10, 64) error strconv.ParseUint: parsing ""99999999999999999999x"": value out of range";
        lit "error: value does not start with  "" and/or end with "" value: 'x""y""'"]) by (vm_compute; reflexivity).
  split; auto. split; auto. intros X h R. destruct (messages_model X h bad_text R P) as (r & h' & o & _ & E & A).
  exists h'. rewrite E. destruct r as [o'|e]; destruct A as [-> A]; auto. rewrite T in A. discriminate.
Qed.

(** Two objects, an open array, an open quotation, a byte that is not ASCII. *)
Lemma ex_more :
  told say_int val_says (lit "{""a"":1},{}") = [lit "error: list is empty"]
  /\ told say_int val_says (lit "{""a"":[1}") = [lit "error: opening and closing squares [] do not match, opening: 1 closing: 0"]
  /\ told say_int val_says (lit "{""a"":""b}")
     = [lit "error: opening and closing brackets {} do not match, opening: 1 closing: 0";
        lit "error: opening and closing quotes do not match, opening: 2 closing: 1"]
  /\ told say_int val_says (lit "{""a"":" ++ ["195"%char; "169"%char; "001"%char] ++ lit "}")
     = [lit "error: strconv.ParseUint(*string_value, 10, 64) error strconv.ParseUint: parsing """
        ++ ["195"%char; "131"%char; "194"%char; "169"%char; c_bs] ++ lit "x01"": invalid syntax"]
  /\ told say_int val_says [] = [lit "error: value empty string"; lit "error: json does not start with {"; lit "error: json does not end with }"].
Proof. vm_compute. auto. Qed.

Lemma ex_value_says : forall v, value_says say_int v (val_says v).
Proof. exact val_exists. Qed.
