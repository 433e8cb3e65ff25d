(** * Specification: unquoted scalars

    What an unquoted scalar of a text denotes.  Independent of the model except
    for the types of scalars and errors. *)
From Coq Require Import Ascii String List NArith ZArith Bool.
From Verif Require Import GoStr GoNum GoFloat Heap SpecNum SpecFloat SpecDoc SpecText.
Import ListNotations.

Definition occurrences (c : ascii) (u : str) : nat := length (filter (Ascii.eqb c) u).

(** The narrowest type of a list that has the value [z]. *)
Definition narrowest (ks : list ikind) (z : Z) (k : ikind) : Prop :=
  In k ks /\ fits true k z
  /\ forall k', In k' ks -> fits true k' z -> (width true k <= width true k')%Z.
Definition unsigned_types := [KUInt8; KUInt16; KUInt32; KUInt64].
Definition signed_types := [KInt8; KInt16; KInt32; KInt64].

(** [u] is a decimal fraction with the value [n/d]: digits, a point, digits (not
    both empty) and possibly a non-negative exponent. *)
Definition exponent (x : str) (e : Z) : Prop :=
  (x = [] /\ e = 0%Z)
  \/ exists c p ds, x = c :: p ++ ds /\ (c = "e"%char \/ c = "E"%char)
       /\ (p = [] \/ p = ["+"%char]) /\ numeral ds e /\ (e < 10000)%Z.
Definition fraction (u : str) (n d : Z) : Prop :=
  exists i f x e,
    u = i ++ "."%char :: f ++ x /\ Forall is_digit i /\ Forall is_digit f /\ i ++ f <> []
    /\ exponent x e
    /\ n = (decimal (i ++ f) * 10 ^ e)%Z /\ d = (10 ^ Z.of_nat (length f))%Z.

(** Faults in the use of the sign and of the point. *)
Definition sign_errs (u : str) : list err :=
  match occurrences "-"%char u with
  | 0 => []
  | 1 => match u with c :: _ => if Ascii.eqb c "-"%char then [] else [ENegPos] | [] => [] end
  | _ => [ENegCount]
  end.
Definition point_errs (u : str) : list err :=
  match occurrences "."%char u with 0 | 1 => [] | _ => [EDotCount] end.

(** Bytes that occur in some number. *)
Definition number_byte (c : ascii) : Prop := In c (lit "0123456789.+-_abcdefABCDEFxXpP").

Definition keyword (u : str) : Prop := u = lit "true" \/ u = lit "false" \/ u = lit "null".
Definition sign (neg : bool) : str := if neg then ["-"%char] else [].

Inductive lexeme : str -> tokres -> Prop :=
| lx_none : lexeme [] TokNone
| lx_true : lexeme (lit "true") (TokDoc (DScal (SBool true)))
| lx_false : lexeme (lit "false") (TokDoc (DScal (SBool false)))
| lx_null : lexeme (lit "null") (TokDoc DNull)
| lx_nat u z k :
    numeral u z -> narrowest unsigned_types z k -> lexeme u (TokDoc (DScal (SInt k z)))
| lx_nat_big u z :
    numeral u z -> (2 ^ 64 <= z)%Z -> lexeme u (TokErr [EUintSyn])
| lx_neg u z k :
    numeral u z -> narrowest signed_types (- z) k -> lexeme ("-"%char :: u) (TokDoc (DScal (SInt k (- z))))
| lx_neg_big u z :
    numeral u z -> (2 ^ 63 < z)%Z -> lexeme ("-"%char :: u) (TokErr [EIntSyn])
| lx_float32 neg u n d f :
    fraction u n d -> rounds_to F32 neg n d (Some f) ->
    lexeme (sign neg ++ u) (TokDoc (DScal (SFlt F32 f)))
| lx_float64 neg u n d f :
    fraction u n d -> rounds_to F32 neg n d None -> rounds_to F64 neg n d (Some f) ->
    lexeme (sign neg ++ u) (TokDoc (DScal (SFlt F64 f)))
| lx_float_big neg u n d :
    fraction u n d -> rounds_to F64 neg n d None -> lexeme (sign neg ++ u) (TokErr [EFloatSyn])
| lx_signs u :
    sign_errs u ++ point_errs u <> [] -> lexeme u (TokErr (sign_errs u ++ point_errs u))
| lx_not_nat u :
    u <> [] -> ~ keyword u -> occurrences "-"%char u = 0 -> occurrences "."%char u = 0 ->
    ~ Forall is_digit u -> lexeme u (TokErr [EUintSyn])
| lx_not_neg u :
    occurrences "-"%char u = 0 -> occurrences "."%char u = 0 -> (u = [] \/ ~ Forall is_digit u) ->
    lexeme ("-"%char :: u) (TokErr [EIntSyn])
| lx_not_float u :
    sign_errs u = [] -> occurrences "."%char u = 1 ->
    (~ Forall number_byte u \/ Forall (fun c => ~ is_digit c) u) ->
    lexeme u (TokErr [EFloatSyn]).

(** What the unquoted scalar [t] denotes. *)
Definition token_means (t : str) (r : tokres) : Prop :=
  Forall plain t /\ lexeme (squeeze t) r.
