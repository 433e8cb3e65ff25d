(** * Binary floating point, [strconv.ParseFloat] and [fmt.Sprintf("%f")]

    A finite float is a sign and an exact dyadic number [m * 2^e].  Rounding is
    to nearest, ties to even, computed with integer arithmetic. *)
From Coq Require Import Ascii String List NArith ZArith Bool.
From Verif Require Import GoStr GoNum.
Import ListNotations.
Local Open Scope Z_scope.

Inductive flt :=
| FFin (neg : bool) (m : Z) (e : Z)   (* (-1)^neg * m * 2^e, m >= 0 *)
| FInf (neg : bool)
| FNaN.

Inductive fkind := F32 | F64.

(** Precision, least exponent of the last place, greatest exponent of the last
    place. *)
Definition f_prec (k : fkind) : Z := match k with F32 => 24 | F64 => 53 end.
Definition f_emin (k : fkind) : Z := match k with F32 => -149 | F64 => -1074 end.
Definition f_emax (k : fkind) : Z := match k with F32 => 104 | F64 => 971 end.

(** Nearest integer to [n/d], ties to even ([n >= 0], [d > 0]). *)
Definition rne (n d : Z) : Z :=
  let q := n / d in
  let r := n mod d in
  if 2 * r <? d then q
  else if d <? 2 * r then q + 1
  else if Z.even q then q else q + 1.

(** [n / (d * 2^e)] as numerator and denominator. *)
Definition scale (n d e : Z) : Z * Z :=
  if 0 <=? e then (n, d * 2 ^ e) else (n * 2 ^ (- e), d).

(** Greatest [k] with [2^k <= n/d] ([n > 0], [d > 0]). *)
Definition ilog2 (n d : Z) : Z :=
  let k := Z.log2 n - Z.log2 d in
  let '(a, b) := scale n d k in
  if b <=? a then k else k - 1.

(** Round the non-negative rational [n/d] into format [k]; [None] is overflow. *)
Definition round_pos (k : fkind) (n d : Z) : option (Z * Z) :=
  if n =? 0 then Some (0, f_emin k)
  else
    let e := Z.max (f_emin k) (ilog2 n d - f_prec k + 1) in
    let '(a, b) := scale n d e in
    let q := rne a b in
    let '(m, e') := if q =? 2 ^ f_prec k then (2 ^ (f_prec k - 1), e + 1) else (q, e) in
    if f_emax k <? e' then None else Some (m, e').

(** Same with a sign, overflow giving the infinity. *)
Definition round_signed (k : fkind) (neg : bool) (n d : Z) : flt * bool :=
  match round_pos k n d with
  | Some (m, e) => (FFin neg m e, true)
  | None => (FInf neg, false)
  end.

(** Conversion [float64(x)] of an integer (Value.go:692-771). *)
Definition flt_of_Z (k : fkind) (z : Z) : flt :=
  fst (round_signed k (z <? 0) (Z.abs z) 1).

(** Conversions [float64(x)] and [float32(x)] between float types
    (Value.go:687,690,824,849; JSON.go:564). *)
Definition flt_conv (k : fkind) (f : flt) : flt :=
  match f with
  | FFin neg m e => if 0 <=? e then fst (round_signed k neg (m * 2 ^ e) 1)
                    else fst (round_signed k neg m (2 ^ (- e)))
  | _ => f
  end.

(** ** [strconv.ParseFloat] *)

Definition lower (c : ascii) : ascii :=
  let n := N_of_ascii c in
  if (N.leb 65 n && N.leb n 90)%bool then ascii_of_N (n + 32) else c.

Definition hex_val (c : ascii) : option Z :=
  match digit_val c with
  | Some d => Some d
  | None => let n := Z.of_N (N_of_ascii (lower c)) in
            if (97 <=? n) && (n <=? 102) then Some (n - 87) else None
  end.

Definition base_digit (hex : bool) (c : ascii) : option Z :=
  if hex then hex_val c else digit_val c.

(** Mantissa loop of strconv's [readFloat]: accumulated digits, number of
    fraction digits, saw a dot, saw a digit, saw an underscore, rest. *)
Fixpoint read_mant (hex : bool) (m : Z) (fd : Z) (dot dig us : bool) (s : str)
  : Z * Z * bool * bool * bool * str :=
  match s with
  | [] => (m, fd, dot, dig, us, s)
  | c :: t =>
      if Ascii.eqb c c_us then read_mant hex m fd dot dig true t
      else if Ascii.eqb c c_dot then
        if dot then (m, fd, dot, dig, us, s) else read_mant hex m fd true dig us t
      else match base_digit hex c with
           | Some d => read_mant hex (m * (if hex then 16 else 10) + d)
                                 (if dot then fd + 1 else fd) dot true us t
           | None => (m, fd, dot, dig, us, s)
           end
  end.

(** Exponent digit loop; the value stops growing at 10000 as in strconv. *)
Fixpoint read_exp (e : Z) (us : bool) (s : str) : Z * bool * str :=
  match s with
  | [] => (e, us, s)
  | c :: t =>
      if Ascii.eqb c c_us then read_exp e true t
      else match digit_val c with
           | Some d => read_exp (if e <? 10000 then e * 10 + d else e) us t
           | None => (e, us, s)
           end
  end.

(** strconv's [underscoreOK], after the sign and base prefix: [saw] is the
    class of the last byte. *)
Inductive saw_t := SawStart | SawDigit | SawUnder | SawOther.
Fixpoint underscore_ok (hex : bool) (saw : saw_t) (s : str) : bool :=
  match s with
  | [] => match saw with SawUnder => false | _ => true end
  | c :: t =>
      match base_digit hex c with
      | Some _ => underscore_ok hex SawDigit t
      | None =>
          if Ascii.eqb c c_us
          then match saw with SawDigit => underscore_ok hex SawUnder t | _ => false end
          else match saw with SawUnder => false | _ => underscore_ok hex SawOther t end
      end
  end.

(** Result of the syntax analysis. *)
Inductive fsyn :=
| SynNum (neg : bool) (n d : Z)    (* the number (-1)^neg * n / d *)
| SynInf (neg : bool)
| SynNaN.

(** The rational [m * b^e]. *)
Definition pow_rat (m b e : Z) : Z * Z :=
  if 0 <=? e then (m * b ^ e, 1) else (m, b ^ (- e)).

Definition lower_str (s : str) : str := map lower s.

(** The number part of [readFloat], after the sign. *)
Definition read_number (neg : bool) (s : str) : option fsyn :=
  let '(hex, body) :=
    match s with
    | a :: b :: _ :: _ =>
        if Ascii.eqb a "0"%char && Ascii.eqb (lower b) "x"%char
        then (true, tl (tl s)) else (false, s)
    | _ => (false, s)
    end in
  let '(m, fd, dot, dig, us, rest) := read_mant hex 0 0 false false false body in
  if negb dig then None
  else
    let exp_char := if hex then "p"%char else "e"%char in
    let fin (e : Z) (us' : bool) :=
      if us' && negb (underscore_ok hex (if hex then SawDigit else SawStart) body) then None
      else let '(n, d) := if hex then pow_rat m 2 (e - 4 * fd) else pow_rat m 10 (e - fd)
           in Some (SynNum neg n d) in
    match rest with
    | [] => if hex then None else fin 0 us
    | c :: t =>
        if Ascii.eqb (lower c) exp_char then
          let '(eneg, t') :=
            match t with
            | x :: t2 => if Ascii.eqb x c_plus then (false, t2)
                         else if Ascii.eqb x c_min then (true, t2) else (false, t)
            | [] => (false, t)
            end in
          match t' with
          | x :: _ =>
              match digit_val x with
              | None => None
              | Some _ =>
                  let '(e, us', rest') := read_exp 0 us t' in
                  match rest' with
                  | [] => fin (if eneg then - e else e) us'
                  | _ => None
                  end
              end
          | [] => None
          end
        else None
    end.

(** Syntax of [ParseFloat]: special values, then numbers. *)
Definition parse_float_syn (s : str) : option fsyn :=
  let l := lower_str s in
  if str_eqb l (lit "nan") then Some SynNaN
  else if str_eqb l (lit "inf") || str_eqb l (lit "infinity")
          || str_eqb l (lit "+inf") || str_eqb l (lit "+infinity") then Some (SynInf false)
  else if str_eqb l (lit "-inf") || str_eqb l (lit "-infinity") then Some (SynInf true)
  else match s with
       | [] => None
       | c :: t => if Ascii.eqb c c_plus then read_number false t
                   else if Ascii.eqb c c_min then read_number true t
                   else read_number false s
       end.

(** [strconv.ParseFloat(s, bits)]; [None] is a non-nil error (syntax, or range
    when the rounded value overflows).  Called at JSON.go:554,560 and
    Value.go:773,780,815,840.  The conversion is assumed correctly rounded. *)
Definition parse_float (k : fkind) (s : str) : option flt :=
  match parse_float_syn s with
  | Some (SynNum neg n d) => match round_pos k n d with
                             | Some (m, e) => Some (FFin neg m e)
                             | None => None
                             end
  | Some (SynInf neg) => Some (FInf neg)
  | Some SynNaN => Some FNaN
  | None => None
  end.

(** ** [fmt.Sprintf("%f", x)] (JSON.go:971-977, Value.go:815,840) *)

(** [|x| * 10^6] rounded to an integer, ties to even. *)
Definition micro (m e : Z) : Z :=
  if 0 <=? e then m * 2 ^ e * 1000000 else rne (m * 1000000) (2 ^ (- e)).

(** Six digits, zero padded. *)
Definition six (z : Z) : str :=
  [digit_char (z / 100000 mod 10); digit_char (z / 10000 mod 10);
   digit_char (z / 1000 mod 10); digit_char (z / 100 mod 10);
   digit_char (z / 10 mod 10); digit_char (z mod 10)].

Definition format_f (f : flt) : str :=
  match f with
  | FFin neg m e =>
      let u := micro m e in
      (if neg then [c_min] else []) ++ format_uint (u / 1000000)
        ++ [c_dot] ++ six (u mod 1000000)
  | FInf true => lit "-Inf"
  | FInf false => lit "+Inf"
  | FNaN => lit "NaN"
  end.
