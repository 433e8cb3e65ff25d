(** * Specification: nearest floating point numbers

    Independent of the model except for the type [flt] of floats.  Every float is
    an integer multiple of 2^-1074, so distances to a rational [n/d] are compared
    as integers. *)
From Coq Require Import ZArith Bool.
From Verif Require Import GoFloat.
Local Open Scope Z_scope.

(** IEEE 754 binary32 and binary64: precision and range of the exponent of the
    last place. *)
Definition prec (k : fkind) : Z := match k with F32 => 24 | F64 => 53 end.
Definition emin (k : fkind) : Z := match k with F32 => -149 | F64 => -1074 end.
Definition emax (k : fkind) : Z := match k with F32 => 104 | F64 => 971 end.

(** [m * 2^e] is a non-negative number of the format, in normal form. *)
Definition in_format (k : fkind) (m e : Z) : Prop :=
  0 <= m < 2 ^ prec k /\ emin k <= e <= emax k.
Definition normal_form (k : fkind) (m e : Z) : Prop :=
  in_format k m e /\ (2 ^ (prec k - 1) <= m \/ e = emin k).

(** [m * 2^e] in units of 2^-1074. *)
Definition units (m e : Z) : Z := m * 2 ^ (e + 1074).

(** Distance of [n/d] from [m * 2^e], in units of 2^-1074 / d. *)
Definition dist (n d m e : Z) : Z := Z.abs (n * 2 ^ 1074 - units m e * d).

(** [m * 2^e] is the number of the format nearest to [n/d], ties to even. *)
Definition nearest (k : fkind) (n d m e : Z) : Prop :=
  normal_form k m e
  /\ (forall m' e', in_format k m' e' -> dist n d m e <= dist n d m' e')
  /\ (forall m' e', in_format k m' e' -> dist n d m e = dist n d m' e' ->
        units m' e' <> units m e -> Z.even m = true).

(** [n/d] rounds to infinity: it is at least half a unit above the greatest
    number of the format. *)
Definition overflows (k : fkind) (n d : Z) : Prop :=
  (2 * 2 ^ prec k - 1) * 2 ^ emax k * d <= 2 * n.

(** The float of format [k] nearest to (-1)^neg * n/d; [None] is an overflow. *)
Definition rounds_to (k : fkind) (neg : bool) (n d : Z) (f : option flt) : Prop :=
  (overflows k n d /\ f = None)
  \/ (~ overflows k n d /\ exists m e, f = Some (FFin neg m e) /\ nearest k n d m e).
