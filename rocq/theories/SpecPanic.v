(** * Specification: the texts on which Parse panics

    A reading of the text that keeps no documents, keys, numbers or errors: which
    containers are open, what the reader is waiting for, and the bytes of the value
    being read. *)
From Coq Require Import Ascii String List NArith Bool.
From Verif Require Import GoStr.
Import ListNotations.

(** White space at the ends of a value, as bytes. *)
Definition space_byte (c : ascii) : bool :=
  existsb (N.eqb (N_of_ascii c)) [9; 10; 11; 12; 13; 32; 133; 160]%N.

(** A value consisting of one double quote, possibly after one backslash, and blanks. *)
Fixpoint lone_quote (p : str) : bool :=
  match p with
  | [] => false
  | c :: t =>
      if space_byte c then lone_quote t
      else if Ascii.eqb c c_dq then forallb space_byte t
      else if Ascii.eqb c c_bs then
        match t with d :: u => Ascii.eqb d c_dq && forallb space_byte u | [] => false end
      else false
  end.

(** Waiting for a key, inside a key, waiting for a colon, before a value, in a value. *)
Inductive place := PKeys | PName | PColon | PBefore | PValue.
Inductive kind := KObject | KArray.

Record reading := Reading {
  r_place : place;
  r_quoted : bool;       (* inside a quotation *)
  r_value : str;         (* bytes of the value so far *)
  r_open : list kind }.  (* open containers, innermost first *)

Definition start : reading := Reading PValue false [] [].

(** What is expected after a value or a container inside [open]. *)
Definition expect (p : place) (open : list kind) : place :=
  match open with [] => p | KObject :: _ => PKeys | KArray :: _ => PBefore end.

(** End the value; [close] also closes the innermost container.  [None]: panic. *)
Definition finish_value (close : bool) (r : reading) : option reading :=
  match r_open r with
  | [] => if close then None else Some (Reading (r_place r) (r_quoted r) [] [])
  | k :: o =>
      if lone_quote (r_value r) then None
      else let o' := if close then o else k :: o in
           Some (Reading (expect (r_place r) o') (r_quoted r) [] o')
  end.

Definition close_object (r : reading) : option reading :=
  match r_open r with
  | [] => None
  | _ :: o => Some (Reading (expect (r_place r) o) (r_quoted r) [] o)
  end.

(** One byte; [q]: it is a double quote not preceded by a backslash, [quoted]: a
    quotation is open after it. *)
Definition read_byte (q quoted : bool) (b : ascii) (r : reading) : option reading :=
  let go p := Reading p quoted (r_value r) (r_open r) in
  let more := Reading PValue quoted (r_value r ++ [b]) (r_open r) in
  match r_place r with
  | PKeys => if Ascii.eqb b c_rb then close_object (go PKeys) else Some (go (if q then PName else PKeys))
  | PName => Some (go (if q then PColon else PName))
  | PColon => Some (go (if Ascii.eqb b c_col then PBefore else PColon))
  | PBefore | PValue =>
      if q && negb quoted then
        finish_value false (Reading (r_place r) quoted (r_value r ++ [b]) (r_open r))
      else if match r_place r with PBefore => true | _ => false end
           && (Ascii.eqb b c_sp || Ascii.eqb b c_nl || Ascii.eqb b c_cr
               || Ascii.eqb b c_bs || Ascii.eqb b c_tab)
      then Some (go PBefore)
      else if quoted then Some more
      else if Ascii.eqb b c_lb then Some (Reading PKeys quoted [] (KObject :: r_open r))
      else if Ascii.eqb b c_ls then
        match r_open r with [] => None | o => Some (Reading PBefore quoted [] (KArray :: o)) end
      else if Ascii.eqb b c_rb || Ascii.eqb b c_rs then finish_value true (go PValue)
      else if Ascii.eqb b c_com then finish_value false (go PValue)
      else Some more
  end.

Fixpoint stumbles (prev : option ascii) (s : str) (r : reading) : bool :=
  match s with
  | [] => false
  | b :: t =>
      let q := Ascii.eqb b c_dq
               && match prev with Some p => negb (Ascii.eqb p c_bs) | None => true end in
      match read_byte q (if q then negb (r_quoted r) else r_quoted r) b r with
      | None => true
      | Some r' => stumbles (Some b) t r'
      end
  end.

(** Parse looks at the text only when it starts and ends with braces. *)
Definition panics_on (s : str) : bool :=
  has_prefix [c_lb] s && has_suffix [c_rb] s && stumbles None s start.
