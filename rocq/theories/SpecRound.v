(** * Specification: what a document is after it was written and read back *)
From Coq Require Import Ascii String List NArith ZArith Bool.
From Verif Require Import GoStr GoNum GoFloat Heap SpecNum SpecFloat SpecDoc SpecToken SpecRender.
Import ListNotations.

(** ASCII strings that do not end in a backslash. *)
Definition safe (s : str) : Prop :=
  Forall (fun c => (N_of_ascii c < 128)%N) s /\ forall u, s <> u ++ [c_bs].

Definition is_container (d : doc) : Prop :=
  match d with DArr _ | DMap _ | DTexts _ => True | _ => False end.
Definition finite (s : scalar) : Prop :=
  match s with SFlt _ (FInf _) | SFlt _ FNaN => False | _ => True end.

(** Documents that survive: strings and keys are safe, keys of containers have no
    double quote and floats are finite. *)
Inductive writable : doc -> Prop :=
| wr_null : writable DNull
| wr_str t : safe t -> writable (DScal (SStr t))
| wr_scal s : finite s -> (forall t, s <> SStr t) -> writable (DScal s)
| wr_err t : safe t -> writable (DErr t)
| wr_texts l : Forall safe l -> writable (DTexts l)
| wr_arr l : Forall writable l -> writable (DArr l)
| wr_map l :
    Forall (fun kd => safe (fst kd) /\ (is_container (snd kd) -> ~ In c_dq (fst kd)) /\ writable (snd kd)) l ->
    writable (DMap l).

(** Integers come back in the narrowest type of their sign; floats as the float32
    nearest to their six-digit decimal, or as the nearest float64 when that
    overflows; an error as a string and a list of texts as an array of strings. *)
Inductive comes_back : doc -> doc -> Prop :=
| cb_null : comes_back DNull DNull
| cb_bool b : comes_back (DScal (SBool b)) (DScal (SBool b))
| cb_str t : comes_back (DScal (SStr t)) (DScal (SStr t))
| cb_nat k k' z :
    (0 <= z)%Z -> narrowest unsigned_types z k' -> comes_back (DScal (SInt k z)) (DScal (SInt k' z))
| cb_neg k k' z :
    (z < 0)%Z -> narrowest signed_types z k' -> comes_back (DScal (SInt k z)) (DScal (SInt k' z))
| cb_flt32 k neg m e z f :
    nearest_integer (units m e * 10 ^ 6) (2 ^ 1074) z -> rounds_to F32 neg z (10 ^ 6) (Some f) ->
    comes_back (DScal (SFlt k (FFin neg m e))) (DScal (SFlt F32 f))
| cb_flt64 k neg m e z f :
    nearest_integer (units m e * 10 ^ 6) (2 ^ 1074) z ->
    rounds_to F32 neg z (10 ^ 6) None -> rounds_to F64 neg z (10 ^ 6) (Some f) ->
    comes_back (DScal (SFlt k (FFin neg m e))) (DScal (SFlt F64 f))
| cb_err t : comes_back (DErr t) (DScal (SStr t))
| cb_texts l : comes_back (DTexts l) (DArr (map (fun t => DScal (SStr t)) l))
| cb_arr l l' : Forall2 comes_back l l' -> comes_back (DArr l) (DArr l')
| cb_map l l' :
    Forall2 (fun kd kd' => fst kd = fst kd' /\ comes_back (snd kd) (snd kd')) l l' ->
    comes_back (DMap l) (DMap l').

(** No float64 in the document. *)
Inductive no_float64 : doc -> Prop :=
| nf_null : no_float64 DNull
| nf_scal s : (forall f, s <> SFlt F64 f) -> no_float64 (DScal s)
| nf_err t : no_float64 (DErr t)
| nf_texts l : no_float64 (DTexts l)
| nf_arr l : Forall no_float64 l -> no_float64 (DArr l)
| nf_map l : Forall (fun kd => no_float64 (snd kd)) l -> no_float64 (DMap l).
