(** * Specification: every unquoted scalar

    SpecToken.v leaves open some numbers with a point: underscores, large exponents,
    a plus sign, hexadecimal digits.  Here all of them. *)
From Coq Require Import Ascii String List NArith ZArith Bool.
From Verif Require Import GoStr GoNum GoFloat Heap SpecNum SpecFloat SpecDoc SpecText SpecToken SpecPanic.
Import ListNotations.

(** Digits of base 10, or 16 ([hex]). *)
Definition digit_in (hex : bool) (c : ascii) : Prop :=
  is_digit c \/ (hex = true /\ In c (lit "abcdefABCDEF")).
Definition face (c : ascii) : Z :=
  let n := Z.of_N (N_of_ascii c) in
  (if n <? 58 then n - 48 else if n <? 71 then n - 55 else n - 87)%Z.
Definition base (hex : bool) : Z := if hex then 16%Z else 10%Z.
Fixpoint number (hex : bool) (s : str) : Z :=
  match s with [] => 0%Z | c :: t => (face c * base hex ^ Z.of_nat (length t) + number hex t)%Z end.

Definition without_us (s : str) : str := filter (fun c => negb (Ascii.eqb c "_"%char)) s.

(** Digits, a point, digits, with underscores anywhere. *)
Definition mantissa (hex : bool) (m i f : str) : Prop :=
  without_us m = i ++ "."%char :: f /\ Forall (digit_in hex) (i ++ f) /\ i ++ f <> [].

(** The exponent [e]: a letter, perhaps a plus sign, decimal digits with underscores after
    the first; digits that follow when the value has reached 10000 are ignored. *)
Definition power (letters : str) (x : str) (e : Z) : Prop :=
  exists c p d ds a b,
    x = c :: p ++ d :: ds /\ In c letters /\ (p = [] \/ p = ["+"%char])
    /\ is_digit d /\ Forall (fun y => is_digit y \/ y = "_"%char) ds
    /\ d :: without_us ds = a ++ b /\ e = decimal a
    /\ (b = [] \/ (10000 <= decimal a)%Z) /\ (decimal (removelast a) < 10000)%Z.

(** Every underscore stands between digits, or at the start of a hexadecimal number. *)
Definition separated (hex : bool) (s : str) : Prop :=
  forall a b, s = a ++ "_"%char :: b ->
    match rev a with x :: _ => digit_in hex x | [] => hex = true end
    /\ match b with y :: _ => digit_in hex y | [] => False end.

(** [u] is a number with a point and the value [n/d]. *)
Inductive point_number : str -> Z -> Z -> Prop :=
| pn_decimal m i f x e :
    mantissa false m i f -> (x = [] /\ e = 0%Z \/ power (lit "eE") x e) -> separated false (m ++ x) ->
    point_number (m ++ x) (number false (i ++ f) * 10 ^ e) (10 ^ Z.of_nat (length f))
| pn_hex z m i f x e :
    In z (lit "xX") -> mantissa true m i f -> power (lit "pP") x e -> separated true (m ++ x) ->
    point_number ("0"%char :: z :: m ++ x) (number true (i ++ f) * 2 ^ e) (16 ^ Z.of_nat (length f)).
Definition signed_number (u : str) (neg : bool) (n d : Z) : Prop :=
  exists v, point_number v n d
    /\ (neg = true /\ u = "-"%char :: v \/ neg = false /\ (u = v \/ u = "+"%char :: v)).

(** One point, and no minus sign but in front. *)
Definition one_point (u : str) : Prop := sign_errs u = [] /\ occurrences "."%char u = 1.

(** What every unquoted scalar denotes. *)
Inductive reads : str -> tokres -> Prop :=
| rd_lexeme u r : lexeme u r -> reads u r
| rd_float32 u neg n d f :
    one_point u -> signed_number u neg n d -> rounds_to F32 neg n d (Some f) ->
    reads u (TokDoc (DScal (SFlt F32 f)))
| rd_float64 u neg n d f :
    one_point u -> signed_number u neg n d -> rounds_to F32 neg n d None -> rounds_to F64 neg n d (Some f) ->
    reads u (TokDoc (DScal (SFlt F64 f)))
| rd_big u neg n d :
    one_point u -> signed_number u neg n d -> rounds_to F64 neg n d None -> reads u (TokErr [EFloatSyn])
| rd_not_number u :
    one_point u -> (forall neg n d, ~ signed_number u neg n d) -> reads u (TokErr [EFloatSyn]).

(** [u] is [t] without the white space at its ends. *)
Definition trimmed (t u : str) : Prop :=
  exists a b, t = a ++ u ++ b /\ Forall (fun c => space_byte c = true) (a ++ b)
    /\ forall c, (forall v, u = c :: v -> space_byte c = false) /\ (forall v, u = v ++ [c] -> space_byte c = false).

(** What the unquoted scalar [t] of a text denotes: white space at the ends, blanks and
    backslashes do not count, and the bytes are read as Latin-1. *)
Definition scalar_means (t : str) (r : tokres) : Prop :=
  exists u, trimmed t u /\ reads (latin1 (squeeze u)) r.
