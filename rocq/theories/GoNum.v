(** * Integers of Go and package [strconv] (base 10) *)
From Coq Require Import Ascii String List NArith ZArith Bool.
From Verif Require Import GoStr.
Import ListNotations.
Local Open Scope Z_scope.

(** The ten integer types a Value may hold (/repo/json/Value.go:78-118). *)
Inductive ikind :=
| KInt | KInt8 | KInt16 | KInt32 | KInt64
| KUInt | KUInt8 | KUInt16 | KUInt32 | KUInt64.

(** Two's complement ranges.  [is64] is [strconv.IntSize = 64]
    (Value.go:1795). *)
Definition int_min (is64 : bool) (k : ikind) : Z :=
  match k with
  | KInt => if is64 then - 2^63 else - 2^31
  | KInt8 => - 2^7 | KInt16 => - 2^15 | KInt32 => - 2^31 | KInt64 => - 2^63
  | _ => 0
  end.

Definition int_max (is64 : bool) (k : ikind) : Z :=
  match k with
  | KInt => if is64 then 2^63 - 1 else 2^31 - 1
  | KInt8 => 2^7 - 1 | KInt16 => 2^15 - 1 | KInt32 => 2^31 - 1 | KInt64 => 2^63 - 1
  | KUInt => if is64 then 2^64 - 1 else 2^32 - 1
  | KUInt8 => 2^8 - 1 | KUInt16 => 2^16 - 1 | KUInt32 => 2^32 - 1 | KUInt64 => 2^64 - 1
  end.

Definition in_range (is64 : bool) (k : ikind) (z : Z) : bool :=
  (int_min is64 k <=? z) && (z <=? int_max is64 k).

(** Conversion to a 64-bit signed integer, [int64(x)]: wraps (Value.go:1127). *)
Definition wrap64 (z : Z) : Z := (z + 2^63) mod 2^64 - 2^63.

(** Decimal digits. *)
Definition digit_val (c : ascii) : option Z :=
  let n := Z.of_N (N_of_ascii c) in
  if (48 <=? n) && (n <=? 57) then Some (n - 48) else None.

(** Value of a digit string, [None] when empty or when a byte is not a digit. *)
Fixpoint digits_acc (acc : Z) (s : str) : option Z :=
  match s with
  | [] => Some acc
  | c :: s' => match digit_val c with
               | Some d => digits_acc (acc * 10 + d) s'
               | None => None
               end
  end.

Definition digits_val (s : str) : option Z :=
  match s with [] => None | _ => digits_acc 0 s end.

(** [strconv.ParseUint(s, 10, bits)]; [None] is a non-nil error (syntax or
    range).  Called at JSON.go:616-641 and Value.go:1328,1340. *)
Definition parse_uint (bits : Z) (s : str) : option Z :=
  match digits_val s with
  | Some v => if v <=? 2 ^ bits - 1 then Some v else None
  | None => None
  end.

(** [strconv.ParseInt(s, 10, bits)]; an optional sign, then digits.  Called at
    JSON.go:575-600 and Value.go:1042,1056,1132,1139. *)
Definition parse_int (bits : Z) (s : str) : option Z :=
  let '(neg, ds) := match s with
                    | c :: t => if Ascii.eqb c c_min then (true, t)
                                else if Ascii.eqb c c_plus then (false, t) else (false, s)
                    | [] => (false, s)
                    end in
  match digits_val ds with
  | Some v => if neg then (if v <=? 2 ^ (bits - 1) then Some (- v) else None)
              else (if v <=? 2 ^ (bits - 1) - 1 then Some v else None)
  | None => None
  end.

Definition digit_char (d : Z) : ascii := ascii_of_N (Z.to_N (48 + d)).

(** Decimal digits of a non-negative integer, most significant first. *)
Fixpoint dec_fuel (fuel : nat) (z : Z) (acc : str) : str :=
  match fuel with
  | O => acc
  | S f => let acc' := digit_char (z mod 10) :: acc in
           if z / 10 =? 0 then acc' else dec_fuel f (z / 10) acc'
  end.

(** [strconv.FormatUint(z, 10)].  The fuel is the bit length plus one, which
    bounds the number of decimal digits. *)
Definition format_uint (z : Z) : str := dec_fuel (S (Z.to_nat (Z.log2 z))) z [].

(** [strconv.FormatInt(z, 10)] (JSON.go:930-969). *)
Definition format_int (z : Z) : str :=
  if z <? 0 then c_min :: format_uint (- z) else format_uint z.
