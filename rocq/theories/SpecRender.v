(** * Specification: the text of a document

    Independent of the model except for the types of scalars. *)
From Coq Require Import Ascii String List NArith ZArith Bool.
From Verif Require Import GoStr GoNum GoFloat Heap SpecNum SpecFloat SpecDoc SpecToken.
Import ListNotations.

(** The scalars of a document are values of their Go types. *)
Definition proper_scalar (is64 : bool) (s : scalar) : Prop :=
  match s with
  | SInt k z => fits is64 k z
  | SFlt k (FFin _ m e) => normal_form k m e
  | _ => True
  end.
Inductive proper (is64 : bool) : doc -> Prop :=
| pr_null : proper is64 DNull
| pr_scal s : proper_scalar is64 s -> proper is64 (DScal s)
| pr_err t : proper is64 (DErr t)
| pr_texts l : proper is64 (DTexts l)
| pr_arr l : Forall (proper is64) l -> proper is64 (DArr l)
| pr_map l : Forall (fun kd => proper is64 (snd kd)) l -> proper is64 (DMap l).

(** A string between double quotes, each double quote in it preceded by a backslash. *)
Definition quote (s : str) : str :=
  [c_dq] ++ flat_map (fun c => if Ascii.eqb c c_dq then [c_bs; c_dq] else [c]) s ++ [c_dq].

(** Texts separated by commas. *)
Fixpoint commas (l : list str) : str :=
  match l with
  | [] => []
  | [x] => x
  | x :: t => x ++ [c_com] ++ commas t
  end.

(** The decimal numeral of an integer, without superfluous zeros. *)
Definition integer_text (z : Z) (s : str) : Prop :=
  exists u, s = sign (z <? 0)%Z ++ u /\ numeral u (Z.abs z) /\ canonical u.

(** [z] is the integer nearest to [n/d], ties to even. *)
Definition nearest_integer (n d z : Z) : Prop :=
  (2 * Z.abs (n - z * d) <= d /\ (2 * Z.abs (n - z * d) = d -> Z.even z = true))%Z.

(** The decimal with six fraction digits nearest to (-1)^neg * m * 2^e. *)
Definition fixed_text (neg : bool) (m e : Z) (s : str) : Prop :=
  exists i f z,
    s = sign neg ++ i ++ [c_dot] ++ f /\ numeral (i ++ f) z /\ canonical i
    /\ length f = 6%nat /\ nearest_integer (units m e * 10 ^ 6) (2 ^ 1074) z.

(** The text of a document. *)
Inductive shows : doc -> str -> Prop :=
| sh_null : shows DNull (lit "null")
| sh_true : shows (DScal (SBool true)) (lit "true")
| sh_false : shows (DScal (SBool false)) (lit "false")
| sh_int k z s : integer_text z s -> shows (DScal (SInt k z)) s
| sh_flt k neg m e s : fixed_text neg m e s -> shows (DScal (SFlt k (FFin neg m e))) s
| sh_pinf k : shows (DScal (SFlt k (FInf false))) (lit "+Inf")
| sh_ninf k : shows (DScal (SFlt k (FInf true))) (lit "-Inf")
| sh_nan k : shows (DScal (SFlt k FNaN)) (lit "NaN")
| sh_str t : shows (DScal (SStr t)) (quote t)
| sh_err t : shows (DErr t) (quote t)
| sh_texts l : shows (DTexts l) ([c_ls] ++ commas (map quote l) ++ [c_rs])
| sh_arr l ts : Forall2 shows l ts -> shows (DArr l) ([c_ls] ++ commas ts ++ [c_rs])
| sh_map l ts :
    Forall2 (fun kd t => shows (snd kd) t) l ts ->
    shows (DMap l)
      ([c_lb] ++ commas (map (fun kt => quote (fst kt) ++ [c_col] ++ snd kt) (combine (map fst l) ts)) ++ [c_rb]).
