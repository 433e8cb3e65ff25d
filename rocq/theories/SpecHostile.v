(** * Specification: strings that end in a backslash

    The library writes a backslash as it is, so a string that ends in one hides the
    double quote after it from Parse. *)
From Coq Require Import Ascii String List NArith ZArith Bool Arith.
From Verif Require Import GoStr GoNum GoFloat Heap SpecDoc SpecText SpecRender SpecRound.
Import ListNotations.

(** 1 for a string that ends in a backslash, 0 for any other. *)
Definition slash (s : str) : nat := if Ascii.eqb (last s c_sp) c_bs then 1 else 0.

Definition total (l : list nat) : nat := fold_right Nat.add 0 l.

(** How many keys, strings, errors and texts of a document end in a backslash. *)
Fixpoint slashes (d : doc) : nat :=
  match d with
  | DScal (SStr t) => slash t
  | DErr t => slash t
  | DTexts l => total (map slash l)
  | DArr l => total (map slashes l)
  | DMap l => total (map (fun kd => slash (fst kd) + slashes (snd kd)) l)
  | _ => 0
  end.

Definition is_ascii (s : str) : Prop := Forall (fun c => (N_of_ascii c < 128)%N) s.

(** [writable] of SpecRound.v without its condition on backslashes. *)
Inductive ordinary : doc -> Prop :=
| or_null : ordinary DNull
| or_str t : is_ascii t -> ordinary (DScal (SStr t))
| or_scal s : finite s -> (forall t, s <> SStr t) -> ordinary (DScal s)
| or_err t : is_ascii t -> ordinary (DErr t)
| or_texts l : Forall is_ascii l -> ordinary (DTexts l)
| or_arr l : Forall ordinary l -> ordinary (DArr l)
| or_map l :
    Forall (fun kd => is_ascii (fst kd) /\ (is_container (snd kd) -> ~ In c_dq (fst kd)) /\ ordinary (snd kd)) l ->
    ordinary (DMap l).

(** Text without double quotes, brackets, backslashes and colons. *)
Definition harmless (s : str) : Prop := Forall (fun c => ~ structural c /\ c <> c_bs /\ c <> c_col) s.

(** A value written without brackets, backslashes and colons. *)
Definition harmless_value (d : doc) : Prop :=
  match d with
  | DNull => True
  | DScal (SStr t) => harmless t
  | DScal s => finite s
  | _ => False
  end.

Definition dstr (s : str) : doc := DScal (SStr s).
