(** * Go strings and the parts of package [strings] used by /repo/json

    A Go string is an immutable sequence of bytes; it is modelled as a list of
    [ascii] (8-bit) characters.  Nothing here is specific to /repo; the
    definitions model the Go standard library functions called from the cited
    lines. *)
From Coq Require Import Ascii String List NArith Bool.
Import ListNotations.
Local Open Scope list_scope.

Definition str := list ascii.

(** String literals. *)
Definition lit (s : string) : str := list_ascii_of_string s.

(** Byte constants used by /repo/json/JSON.go:28-447. *)
Definition c_dq  : ascii := "034"%char.   (* double quote *)
Definition c_bs  : ascii := "092"%char.   (* backslash *)
Definition c_lb  : ascii := "{"%char.
Definition c_rb  : ascii := "}"%char.
Definition c_ls  : ascii := "["%char.
Definition c_rs  : ascii := "]"%char.
Definition c_com : ascii := ","%char.
Definition c_col : ascii := ":"%char.
Definition c_sp  : ascii := " "%char.
Definition c_nl  : ascii := "010"%char.
Definition c_cr  : ascii := "013"%char.
Definition c_tab : ascii := "009"%char.
Definition c_vt  : ascii := "011"%char.
Definition c_ff  : ascii := "012"%char.
Definition c_min : ascii := "-"%char.
Definition c_plus : ascii := "+"%char.
Definition c_dot : ascii := "."%char.
Definition c_us  : ascii := "_"%char.

(** Go [==] on strings. *)
Fixpoint str_eqb (a b : str) : bool :=
  match a, b with
  | [], [] => true
  | x :: a', y :: b' => Ascii.eqb x y && str_eqb a' b'
  | _, _ => false
  end.

(** [strings.HasPrefix(s, p)] (JSON.go:34,129,471,480,529). *)
Fixpoint has_prefix (p s : str) : bool :=
  match p, s with
  | [], _ => true
  | x :: p', y :: s' => Ascii.eqb x y && has_prefix p' s'
  | _ :: _, [] => false
  end.

(** [strings.HasSuffix(s, p)] (JSON.go:38,129,471,480). *)
Definition has_suffix (p s : str) : bool := has_prefix (rev p) (rev s).

(** [strings.Contains(s, c)] for a one-byte pattern (JSON.go:479). *)
Definition contains_byte (c : ascii) (s : str) : bool := existsb (Ascii.eqb c) s.

(** [strings.Count(s, c)] for a one-byte pattern (JSON.go:526,539). *)
Fixpoint count_byte (c : ascii) (s : str) : nat :=
  match s with
  | [] => 0
  | x :: s' => (if Ascii.eqb c x then 1 else 0) + count_byte c s'
  end.

(** [strings.Replace(s, old, new, -1)] and [strings.ReplaceAll] for a non-empty
    [old]: leftmost non-overlapping matches.  [skip] is the number of bytes of
    the current match still to be dropped. *)
Fixpoint replace_from (old new : str) (skip : nat) (s : str) : str :=
  match s with
  | [] => []
  | c :: s' =>
      match skip with
      | S k => replace_from old new k s'
      | O => if has_prefix old s
             then new ++ replace_from old new (length old - 1) s'
             else c :: replace_from old new 0 s'
      end
  end.

Definition replace_all (old new s : str) : str := replace_from old new 0 s.

(** Conversion [string(b)] of a byte: the UTF-8 encoding of the code point with
    the byte's value (JSON.go:164,166).  Bytes from 0x80 up become two bytes. *)
Definition utf8_of_byte (b : ascii) : str :=
  let n := N_of_ascii b in
  if N.ltb n 128 then [b]
  else [ascii_of_N (192 + N.div n 64); ascii_of_N (128 + N.modulo n 64)].

(** [unicode.IsSpace] restricted to encodings of length 1, 2 and 3. *)
Definition is_space1 (c : ascii) : bool :=
  Ascii.eqb c c_tab || Ascii.eqb c c_nl || Ascii.eqb c c_vt || Ascii.eqb c c_ff
  || Ascii.eqb c c_cr || Ascii.eqb c c_sp.

(** U+0085 and U+00A0. *)
Definition is_space2 (a b : ascii) : bool :=
  Ascii.eqb a (ascii_of_N 194)
  && (Ascii.eqb b (ascii_of_N 133) || Ascii.eqb b (ascii_of_N 160)).

(** U+1680, U+2000-U+200A, U+2028, U+2029, U+202F, U+205F, U+3000. *)
Definition is_space3 (a b c : ascii) : bool :=
  let m := N_of_ascii b in let n := N_of_ascii c in
  match N_of_ascii a with
  | 225%N => N.eqb m 154 && N.eqb n 128
  | 226%N =>
      (N.eqb m 128 && (N.leb 128 n && N.leb n 138 || N.eqb n 168 || N.eqb n 169 || N.eqb n 175))
      || (N.eqb m 129 && N.eqb n 159)
  | 227%N => N.eqb m 128 && N.eqb n 128
  | _ => false
  end.

(** Left half of [strings.TrimSpace]. *)
Fixpoint trim_left (s : str) : str :=
  match s with
  | [] => []
  | a :: t =>
      if is_space1 a then trim_left t
      else match t with
           | b :: t2 =>
               if is_space2 a b then trim_left t2
               else match t2 with
                    | c :: t3 => if is_space3 a b c then trim_left t3 else s
                    | [] => s
                    end
           | [] => s
           end
  end.

(** Right half of [strings.TrimSpace], on the reversed string. *)
Fixpoint trim_right_rev (s : str) : str :=
  match s with
  | [] => []
  | a :: t =>
      if is_space1 a then trim_right_rev t
      else match t with
           | b :: t2 =>
               if is_space2 b a then trim_right_rev t2
               else match t2 with
                    | c :: t3 => if is_space3 c b a then trim_right_rev t3 else s
                    | [] => s
                    end
           | [] => s
           end
  end.

(** [strings.TrimSpace(s)] (JSON.go:464-465). *)
Definition trim_space (s : str) : str := rev (trim_right_rev (rev (trim_left s))).

(** Slice expression [s[1:len(s)-1]] on a string that is known to be non-empty;
    [None] is the run-time panic for [len(s) < 2] (bounds [1:0])
    (JSON.go:130,472,482). *)
Definition slice_inner (s : str) : option str :=
  match s with
  | _ :: _ :: _ => Some (removelast (tl s))
  | _ => None
  end.
