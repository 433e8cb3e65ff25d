(** * Specification: decimal numerals and integer types

    Independent of the model. *)
From Coq Require Import Ascii String List NArith ZArith Bool.
From Verif Require Import GoStr GoNum.
Import ListNotations.
Local Open Scope Z_scope.

Definition digit (c : ascii) : Z := Z.of_N (N_of_ascii c) - 48.
Definition is_digit (c : ascii) : Prop := 0 <= digit c <= 9.

(** Positional value. *)
Fixpoint decimal (s : str) : Z :=
  match s with
  | [] => 0
  | c :: t => digit c * 10 ^ Z.of_nat (length t) + decimal t
  end.

(** [s] is a non-empty string of digits denoting [z]. *)
Definition numeral (s : str) (z : Z) : Prop :=
  s <> [] /\ Forall is_digit s /\ decimal s = z.

(** [s] is a numeral with an optional sign denoting [z]. *)
Definition signed_numeral (s : str) (z : Z) : Prop :=
  numeral s z
  \/ (exists t, s = "+"%char :: t /\ numeral t z)
  \/ (exists t, s = "-"%char :: t /\ numeral t (- z)).

(** No superfluous leading zero. *)
Definition canonical (s : str) : Prop :=
  s = ["0"%char] \/ match s with c :: _ => c <> "0"%char | [] => False end.

(** Go's integer types: width and signedness ([is64]: int and uint have 64 bits). *)
Definition width (is64 : bool) (k : ikind) : Z :=
  match k with
  | KInt | KUInt => if is64 then 64 else 32
  | KInt8 | KUInt8 => 8 | KInt16 | KUInt16 => 16 | KInt32 | KUInt32 => 32 | KInt64 | KUInt64 => 64
  end.
Definition is_signed (k : ikind) : Prop :=
  k = KInt \/ k = KInt8 \/ k = KInt16 \/ k = KInt32 \/ k = KInt64.

(** [z] is a value of the type [k]. *)
Definition fits (is64 : bool) (k : ikind) (z : Z) : Prop :=
  (is_signed k /\ - 2 ^ (width is64 k - 1) <= z <= 2 ^ (width is64 k - 1) - 1)
  \/ (~ is_signed k /\ 0 <= z <= 2 ^ width is64 k - 1).
