(** * Specification: UTF-8 *)
From Coq Require Import Ascii List NArith.
Import ListNotations.
Local Open Scope N_scope.

(** Unicode scalar values. *)
Definition scalar_value (c : N) : Prop := c < 55296 \/ (57343 < c /\ c < 1114112).

(** The UTF-8 encoding of a code point, RFC 3629. *)
Definition utf8 (c : N) : list ascii :=
  map ascii_of_N
    (if c <? 128 then [c]
     else if c <? 2048 then [192 + c / 64; 128 + c mod 64]
     else if c <? 65536 then [224 + c / 4096; 128 + c / 64 mod 64; 128 + c mod 64]
     else [240 + c / 262144; 128 + c / 4096 mod 64; 128 + c / 64 mod 64; 128 + c mod 64]).

(** The text of a list of code points, and what reading bytes as UTF-8 gives: the code
    point at the front where one is encoded there, otherwise U+FFFD for one byte. *)
Definition utf8_text (cs : list N) : list ascii := flat_map utf8 cs.

Definition begins_with (s u : list ascii) : Prop := exists t, s = u ++ t.

Inductive reads_as : list ascii -> list N -> Prop :=
| RA_end : reads_as [] []
| RA_valid c s cs : scalar_value c -> reads_as s cs -> reads_as (utf8 c ++ s) (c :: cs)
| RA_invalid b s cs : (forall c, scalar_value c -> ~ begins_with (b :: s) (utf8 c)) ->
    reads_as s cs -> reads_as (b :: s) (65533 :: cs).
