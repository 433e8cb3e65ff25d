(** * Specification: rewriting a text by parsing it and writing the result *)
From Coq Require Import Ascii String List NArith ZArith Bool.
From Verif Require Import GoStr GoNum GoFloat Heap Common ValueModel ArrayModel MapModel JsonModel ParserModel Reach SpecNum SpecDoc SpecToken SpecRound.
Import ListNotations.

(** In every reachable state, Parse accepts [s] and ToJSONString of the parsed map
    appends [t] to the builder. *)
Definition rewrites (X : ext) (s t : str) : Prop :=
  forall h, reachable X h ->
  exists m h1 n, Parse X s h = Ok (GVal (Some m), h1)
    /\ forall fuel b, (n <= fuel)%nat -> map_ToJSONString fuel X h1 m (Some b) = Ok (Some (b ++ t), []).

(** Documents without floats, without zeros of a signed type (which Parse makes of -0),
    without errors and lists of texts. *)
Inductive exact : doc -> Prop :=
| ex_null : exact DNull
| ex_bool b : exact (DScal (SBool b))
| ex_str t : exact (DScal (SStr t))
| ex_int k z : (z < 0)%Z \/ In k unsigned_types -> exact (DScal (SInt k z))
| ex_arr l : Forall exact l -> exact (DArr l)
| ex_map l : Forall (fun kd => exact (snd kd)) l -> exact (DMap l).

(** An object with an empty object under a key of [S k] backslashes and a double quote;
    all but the double quotes around the key are within the quotation. *)
Definition grow (k : nat) : str :=
  lit "{""" ++ repeat c_bs (S k) ++ lit """"":{}}".
