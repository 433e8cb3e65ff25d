(** * Specification: where the result of Parse comes from, and how large it is *)
From Coq Require Import Ascii String List NArith ZArith Bool.
From Verif Require Import GoStr GoNum GoFloat Heap SpecNum SpecFloat SpecDoc SpecText SpecToken SpecRead.
Import ListNotations.

(** [t] is a piece of the text [s]. *)
Definition in_text (s t : str) : Prop := exists a b, s = a ++ t ++ b.

(** [u] stands between quotation marks in a piece of [s], as it is or with the
    quotation marks in it (and possibly those around it) preceded by backslashes.
    [latin1] changes nothing in ASCII texts. *)
Definition quoted_in (s u : str) : Prop :=
  exists t, in_text s t
    /\ (latin1 t = [c_dq] ++ u ++ [c_dq] \/ unescape (latin1 t) = [c_dq] ++ u ++ [c_dq]).

(** The word [u] is read as the scalar [d].  For the words that [lexeme] describes, that
    is what they denote; Parse knows more forms of floating-point numbers. *)
Inductive word_reads : str -> doc -> Prop :=
| wr_null : word_reads (lit "null") DNull
| wr_bool b : word_reads (bool_word b) (DScal (SBool b))
| wr_int u k z : integer_literal u z -> word_reads u (DScal (SInt k z))
| wr_float u k f :
    Forall number_byte u -> occurrences "."%char u = 1 ->
    (forall r, lexeme u r -> r = TokDoc (DScal (SFlt k f))) -> word_reads u (DScal (SFlt k f)).

(** Every key and string of the document is quoted in [s], and every other scalar is
    what a piece of [s] without its blanks and backslashes says. *)
Inductive comes_from (s : str) : doc -> Prop :=
| cf_word t d : in_text s t -> word_reads (squeeze t) d -> comes_from s d
| cf_str u : quoted_in s u -> comes_from s (DScal (SStr u))
| cf_arr l : Forall (comes_from s) l -> comes_from s (DArr l)
| cf_map l : Forall (fun kd => quoted_in s (fst kd) /\ comes_from s (snd kd)) l -> comes_from s (DMap l).

(** One for every scalar and container, and the bytes of keys and strings. *)
Fixpoint size (d : doc) : nat :=
  match d with
  | DScal (SStr u) => 1 + length u
  | DArr l => 1 + list_sum (map size l)
  | DMap l => 1 + list_sum (map (fun kd => length (fst kd) + size (snd kd)) l)
  | _ => 1
  end.

(** The number of arrays and objects. *)
Fixpoint containers (d : doc) : nat :=
  match d with
  | DArr l => 1 + list_sum (map containers l)
  | DMap l => 1 + list_sum (map (fun kd => containers (snd kd)) l)
  | _ => 0
  end.
