(** * Specification: the texts of Parse's errors

    Which messages Parse gives for a text, in terms of the reports of SpecEvery.v. *)
From Coq Require Import Ascii String List NArith ZArith Bool.
From Verif Require Import GoStr GoNum GoFloat Heap SpecDict SpecNum SpecFloat SpecDoc SpecText SpecToken SpecParse
  SpecPanic SpecScalar SpecEvery.
Import ListNotations.

(** [D n] is the number [n] in decimal digits. *)
Definition decimals (D : nat -> str) : Prop :=
  forall n, numeral (D n) (Z.of_nat n) /\ canonical (D n).

(** A byte of a value that is no number, as it appears in the message: printable ones
    (blank and A1 to FF without AD: as Latin-1 characters) are kept, some control
    characters have a letter, the others are in hexadecimal. *)
Definition hexadecimal (n : N) : str :=
  let d k := nth (N.to_nat k) (lit "0123456789abcdef") "0"%char in [d (n / 16)%N; d (n mod 16)%N].
Definition letters : list (N * ascii) :=
  [(7, "a"); (8, "b"); (9, "t"); (10, "n"); (11, "v"); (12, "f"); (13, "r")]%N%char.
Definition shown (b : ascii) : str :=
  let n := N_of_ascii b in
  match find (fun p => N.eqb (fst p) n) letters with
  | Some (_, l) => [c_bs; l]
  | None =>
      if (n <? 32)%N || (n =? 127)%N then [c_bs; "x"%char] ++ hexadecimal n
      else if (127 <? n)%N && ((n <? 161)%N || (n =? 173)%N) then [c_bs; "u"%char] ++ lit "00" ++ hexadecimal n
      else utf8_of_byte b
  end.

(** The decimal digits at the start of [t] make a number that does not fit in 64 bits. *)
Definition starts_too_large (t : str) : Prop :=
  exists p q, t = p ++ q /\ Forall is_digit p /\ (2 ^ 64 <= decimal p)%Z.

Definition say_quote (u : str) : str :=
  lit "error: value does not start with  "" and/or end with "" value: '" ++ u ++ lit "'".
Definition say_no_list : str := lit "error: list is empty".
Definition say_float : str := lit "error: strconv.ParseFloat(*string_value, 64) error".
Definition say_negative : str := lit "error: strconv.ParseInt(*string_value, 10, 64) error".
Definition say_number (t reason : str) : str :=
  lit "error: strconv.ParseUint(*string_value, 10, 64) error strconv.ParseUint: parsing """
  ++ flat_map shown t ++ lit """: " ++ reason.

Section Texts.
  Context (D : nat -> str).

  Definition sign_texts (t : str) : list str :=
    match occurrences "-"%char t with
    | 0 => []
    | 1 => match t with
           | c :: _ => if Ascii.eqb c "-"%char then []
                       else [lit "error: negative symbol is not at the start of the number"]
           | [] => []
           end
    | n => [lit "error: value contained " ++ D n ++ lit " negative symbols expected 1"]
    end.
  Definition point_texts (t : str) : list str :=
    match occurrences "."%char t with
    | 0 | 1 => []
    | n => [lit "error: value contained " ++ D n ++ lit " decimal points expected 1"]
    end.

  (** The messages about a value with the bytes [v] inside a container. *)
  Inductive value_says : str -> list str -> Prop :=
  | vs_fine v r : value_means v r -> (forall e, r <> TokErr e) -> value_says v []
  | vs_quote v u :
      trimmed v u -> In c_dq u -> (forall b, unescape (latin1 u) <> c_dq :: b ++ [c_dq]) ->
      value_says v [say_quote (unescape (latin1 u))]
  | vs_signs v u :
      trimmed v u -> ~ In c_dq u -> sign_texts (squeeze u) ++ point_texts (squeeze u) <> [] ->
      value_says v (sign_texts (squeeze u) ++ point_texts (squeeze u))
  | vs_float v : value_means v (TokErr [EFloatSyn]) -> value_says v [say_float]
  | vs_negative v : value_means v (TokErr [EIntSyn]) -> value_says v [say_negative]
  | vs_range v u :
      trimmed v u -> value_means v (TokErr [EUintSyn]) -> starts_too_large (squeeze u) ->
      value_says v [say_number (squeeze u) (lit "value out of range")]
  | vs_syntax v u :
      trimmed v u -> value_means v (TokErr [EUintSyn]) -> ~ starts_too_large (squeeze u) ->
      value_says v [say_number (squeeze u) (lit "invalid syntax")].

  (** The messages while reading, with [n] containers open. *)
  Fixpoint reading_texts (V : str -> list str) (n : nat) (l : list event) : list str :=
    match l with
    | [] => []
    | Named _ :: t => reading_texts V n t
    | Opens _ :: t => reading_texts V (S n) t
    | Closes :: t => reading_texts V (pred n) t
    | Holds v :: t => (match n with 0 => [say_no_list] | _ => V v end) ++ reading_texts V n t
    end.

  Definition wrap_texts (s : str) : list str :=
    (match s with [] => [lit "error: value empty string"] | _ => [] end)
    ++ (if has_prefix [c_lb] s then [] else [lit "error: json does not start with {"])
    ++ (if has_suffix [c_rb] s then [] else [lit "error: json does not end with }"]).

  (** Double quotes not preceded by a backslash. *)
  Fixpoint quotes (prev : option ascii) (s : str) : nat :=
    match s with
    | [] => 0
    | b :: t =>
        (if Ascii.eqb b c_dq && match prev with Some p => negb (Ascii.eqb p c_bs) | None => true end then 1 else 0)
        + quotes (Some b) t
    end.

  Definition unequal (what : str) (a b : nat) : list str :=
    if Nat.eqb a b then []
    else [lit "error: opening and closing " ++ what ++ lit " do not match, opening: " ++ D a ++ lit " closing: " ++ D b].
  Definition balance_texts (s : str) : list str :=
    let o := fst (outside None false s) in
    let n := quotes None s in
    unequal (lit "brackets {}") (occurrences c_lb o) (occurrences c_rb o)
    ++ unequal (lit "squares []") (occurrences c_ls o) (occurrences c_rs o)
    ++ (if Nat.even n then [] else unequal (lit "quotes") (S (Nat.div2 n)) (Nat.div2 n)).

  (** All messages for [s]. *)
  Definition told (V : str -> list str) (s : str) : list str :=
    match wrap_texts s with
    | (_ :: _) as t => t
    | [] => match reading_texts V 0 (events s) with
            | (_ :: _) as t => t
            | [] => balance_texts s
            end
    end.
End Texts.

(** The messages for each kind of error. *)
Inductive wording (D : nat -> str) : err -> str -> Prop :=
| wd_empty : wording D EEmpty (lit "error: value empty string")
| wd_open : wording D ENoOpen (lit "error: json does not start with {")
| wd_close : wording D ENoClose (lit "error: json does not end with }")
| wd_list : wording D EListEmpty say_no_list
| wd_quote u : wording D EValQuote (say_quote u)
| wd_negpos : wording D ENegPos (lit "error: negative symbol is not at the start of the number")
| wd_negcount n : wording D ENegCount (lit "error: value contained " ++ D n ++ lit " negative symbols expected 1")
| wd_dots n : wording D EDotCount (lit "error: value contained " ++ D n ++ lit " decimal points expected 1")
| wd_float : wording D EFloatSyn say_float
| wd_int : wording D EIntSyn say_negative
| wd_uint t r : wording D EUintSyn (say_number t r)
| wd_brackets a b : wording D EBrackets
    (lit "error: opening and closing brackets {} do not match, opening: " ++ D a ++ lit " closing: " ++ D b)
| wd_squares a b : wording D ESquares
    (lit "error: opening and closing squares [] do not match, opening: " ++ D a ++ lit " closing: " ++ D b)
| wd_quotes a b : wording D EQuotes
    (lit "error: opening and closing quotes do not match, opening: " ++ D a ++ lit " closing: " ++ D b).

(** The kinds of errors and the messages of one call agree. *)
Definition same_answer (D : nat -> str) (r : gres (option nat)) (o : option nat) (ms : list str) : Prop :=
  match r with
  | GVal o' => o = o' /\ ms = []
  | GErr e => o = None /\ Forall2 (wording D) e ms
  end.
