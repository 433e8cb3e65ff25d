(** * Specification: object texts and the documents they denote

    The texts Parse is meant for: JSON object texts with blanks between tokens,
    and the more lenient texts it also accepts.  A text is described by its
    structure; [text_of] is the text itself and [value_of] what it denotes.
    Independent of the model except for the types of scalars and errors. *)
From Coq Require Import Ascii String List NArith ZArith Bool.
From Verif Require Import GoStr GoNum GoFloat Heap SpecDict SpecNum SpecFloat SpecDoc.
Import ListNotations.

(** ** Structure *)
Inductive jtext :=
| JTok (t : str)                  (* an unquoted scalar *)
| JStr (b : str)                  (* a quoted string with body [b] *)
| JArr (l : jelems)
| JMap (l : jmembers)
with jelems :=
| ENil (b : str)                  (* text before the closing bracket *)
| ECons (pre : str) (v : jtext) (post : str) (comma : bool) (rest : jelems)
with jmembers :=
| MNil (b : str)                  (* text before the closing brace *)
| MCons (pre : str) (k : str) (mid : str) (pre2 : str) (v : jtext) (post : str) (comma : bool)
    (rest : jmembers).            (* pre "k" mid : pre2 v post , *)

Definition opt_comma (b : bool) : str := if b then [c_com] else [].

Fixpoint text_of (v : jtext) : str :=
  match v with
  | JTok t => t
  | JStr b => [c_dq] ++ b ++ [c_dq]
  | JArr l => [c_ls] ++ text_elems l ++ [c_rs]
  | JMap l => [c_lb] ++ text_members l ++ [c_rb]
  end
with text_elems (l : jelems) : str :=
  match l with
  | ENil b => b
  | ECons pre v post comma rest => pre ++ text_of v ++ post ++ opt_comma comma ++ text_elems rest
  end
with text_members (l : jmembers) : str :=
  match l with
  | MNil b => b
  | MCons pre k mid pre2 v post comma rest =>
      pre ++ ([c_dq] ++ k ++ [c_dq]) ++ mid ++ [c_col] ++ pre2 ++ text_of v ++ post
        ++ opt_comma comma ++ text_members rest
  end.

(** ** Well-formed texts *)
Definition blank (c : ascii) : Prop := c = c_sp \/ c = c_tab \/ c = c_nl \/ c = c_cr.
Definition blanks (s : str) : Prop := Forall blank s.

(** Bytes that structure a text. *)
Definition structural (c : ascii) : Prop :=
  c = c_dq \/ c = c_lb \/ c = c_rb \/ c = c_ls \/ c = c_rs.

(** The body of a quoted string: each double quote is preceded by a backslash and
    the body does not end in a backslash. *)
Definition body_ok (b : str) : Prop :=
  (forall u v, b = u ++ c_dq :: v -> exists u', u = u' ++ [c_bs]) /\ (forall u, b <> u ++ [c_bs]).

Definition is_token (v : jtext) : bool := match v with JTok _ => true | _ => false end.

(** What may stand around members: blanks ([strict]), or any bytes that are not
    structural, nor a backslash (nor a colon, before the colon). *)
Definition gap (strict : bool) (s : str) : Prop :=
  if strict then blanks s else Forall (fun c => ~ structural c /\ c <> c_bs) s.
Definition gap_colon (strict : bool) (s : str) : Prop :=
  if strict then blanks s else Forall (fun c => ~ structural c /\ c <> c_bs /\ c <> c_col) s.

(** Printable ASCII, not a double quote. *)
Definition printable (c : ascii) : Prop := (33 <= N_of_ascii c <= 126)%N /\ c <> c_dq.

(** An unquoted scalar: no structural byte, no comma; strictly, also not empty and
    printable, without backslash; leniently, the first byte is no blank or
    backslash. *)
Definition token_ok (strict : bool) (t : str) : Prop :=
  Forall (fun c => ~ structural c /\ c <> c_com) t
  /\ if strict then t <> [] /\ Forall (fun c => printable c /\ c <> c_bs) t
     else match t with c :: _ => ~ blank c /\ c <> c_bs | [] => True end.

(** Separators.  Strictly: commas between elements and nowhere else (the blanks after
    the last element are written with that element).  Leniently:
    a comma is only needed after an unquoted scalar that is not the last. *)
Definition last_elem (l : jelems) : bool := match l with ENil _ => true | _ => false end.
Definition last_member (l : jmembers) : bool := match l with MNil _ => true | _ => false end.
Definition comma_ok (strict : bool) (token comma last : bool) (tail_empty : Prop) : Prop :=
  if strict then comma = negb last /\ (last = true -> tail_empty)
  else token = true -> comma = true \/ (last = true /\ tail_empty).

Fixpoint text_ok (strict : bool) (v : jtext) : Prop :=
  match v with
  | JTok t => token_ok strict t
  | JStr b => body_ok b
  | JArr l => elems_ok strict l
  | JMap l => members_ok strict l
  end
with elems_ok (strict : bool) (l : jelems) : Prop :=
  match l with
  | ENil b => blanks b
  | ECons pre v post comma rest =>
      blanks pre /\ text_ok strict v /\ blanks post
      /\ comma_ok strict (is_token v) comma (last_elem rest) (rest = ENil [])
      /\ elems_ok strict rest
  end
with members_ok (strict : bool) (l : jmembers) : Prop :=
  match l with
  | MNil b => gap strict b
  | MCons pre k mid pre2 v post comma rest =>
      gap strict pre /\ body_ok k /\ gap_colon strict mid /\ blanks pre2 /\ text_ok strict v
      /\ (if is_token v then blanks post else gap strict post)
      /\ comma_ok strict (is_token v) comma (last_member rest) (rest = MNil [])
      /\ members_ok strict rest
  end.

(** ** Meaning *)

(** Each byte is read as a Latin-1 character and stored in UTF-8; this changes
    nothing for ASCII. *)
Definition latin1 (s : str) : str := flat_map utf8_of_byte s.

(** Replace each backslash, double quote by a double quote. *)
Fixpoint unescape (s : str) : str :=
  match s with
  | [] => []
  | a :: t =>
      match t with
      | b :: t' => if Ascii.eqb a c_bs && Ascii.eqb b c_dq then c_dq :: unescape t' else a :: unescape t
      | [] => [a]
      end
  end.

(** What an unquoted scalar denotes: nothing, a value, or errors. *)
Inductive tokres := TokNone | TokDoc (d : doc) | TokErr (e : list err).

Section Meaning.
  Context (T : str -> tokres).

  (** The key of a member: container keys are not unescaped. *)
  Definition key_of (k : str) (v : jtext) : str :=
    match v with
    | JTok _ | JStr _ => unescape (latin1 k)
    | JArr _ | JMap _ => latin1 k
    end.

  (** Value (if any) and errors, in text order. *)
  Fixpoint value_of (v : jtext) : option doc * list err :=
    match v with
    | JTok t => match T t with
                | TokNone => (None, [])
                | TokDoc d => (Some d, [])
                | TokErr e => (None, e)
                end
    | JStr b => (Some (DScal (SStr (unescape (latin1 b)))), [])
    | JArr l => let (ds, e) := elems_of l in (Some (DArr ds), e)
    | JMap l => let (ms, e) := members_of [] l in (Some (DMap ms), e)
    end
  with elems_of (l : jelems) : list doc * list err :=
    match l with
    | ENil _ => ([], [])
    | ECons _ v _ _ rest =>
        let (d, e) := value_of v in
        let (ds, e') := elems_of rest in
        (match d with Some x => x :: ds | None => ds end, e ++ e')
    end
  with members_of (ms : list (str * doc)) (l : jmembers) : list (str * doc) * list err :=
    match l with
    | MNil _ => (ms, [])
    | MCons _ k _ _ v _ _ rest =>
        let (d, e) := value_of v in
        let (ms', e') := members_of (match d with Some x => dict_set ms (key_of k v) x | None => ms end) rest in
        (ms', e ++ e')
    end.

  (** The outcome of parsing the object text with members [l]. *)
  Definition outcome (l : jmembers) : gres doc :=
    let (ms, e) := members_of [] l in match e with [] => GVal (DMap ms) | _ => GErr e end.
End Meaning.

Fixpoint tokens (v : jtext) : list str :=
  match v with
  | JTok t => [t]
  | JStr _ => []
  | JArr l => tokens_elems l
  | JMap l => tokens_members l
  end
with tokens_elems (l : jelems) : list str :=
  match l with
  | ENil _ => []
  | ECons _ v _ _ rest => tokens v ++ tokens_elems rest
  end
with tokens_members (l : jmembers) : list str :=
  match l with
  | MNil _ => []
  | MCons _ _ _ _ v _ _ rest => tokens v ++ tokens_members rest
  end.

(** Tokens of blanks and printable bytes only. *)
Definition plain (c : ascii) : Prop := blank c \/ printable c.
Definition plain_tokens (l : jmembers) : Prop := Forall (Forall plain) (tokens_members l).

(** ** Positions *)

(** Blanks and backslashes in an unquoted scalar are ignored. *)
Definition ignored (c : ascii) : bool :=
  existsb (Ascii.eqb c) [c_sp; c_tab; c_nl; c_cr; c_bs].
Definition squeeze (t : str) : str := filter (fun c => negb (ignored c)) t.

(** A scalar without any significant byte denotes nothing. *)
Definition present (v : jtext) : bool :=
  match v with JTok t => match squeeze t with [] => false | _ => true end | _ => true end.

(** The values of an array text; the keys and values of an object text. *)
Fixpoint elem_list (l : jelems) : list jtext :=
  match l with
  | ENil _ => []
  | ECons _ v _ _ rest => if present v then v :: elem_list rest else elem_list rest
  end.
Fixpoint member_list (l : jmembers) : list (str * jtext) :=
  match l with
  | MNil _ => []
  | MCons _ k _ _ v _ _ rest =>
      if present v then (key_of k v, v) :: member_list rest else member_list rest
  end.

(** The last value given to a key. *)
Fixpoint last_of {V} (k : str) (l : list (str * V)) : option V :=
  match l with
  | [] => None
  | (k', v) :: t =>
      match last_of k t with
      | Some v' => Some v'
      | None => if str_eqb k' k then Some v else None
      end
  end.

(** The distinct keys, in order of first occurrence. *)
Fixpoint first_keys (ks : list str) : list str :=
  match ks with
  | [] => []
  | k :: t => k :: filter (fun k' => negb (str_eqb k k')) (first_keys t)
  end.

(** The value at a position of a text, and of a document. *)
Fixpoint text_at (v : jtext) (p : list pos) : option jtext :=
  match p with
  | [] => Some v
  | PKey k :: p' => match v with
                    | JMap l => match last_of k (member_list l) with Some v' => text_at v' p' | None => None end
                    | _ => None
                    end
  | PIndex n :: p' => match v with
                      | JArr l => match nth_error (elem_list l) n with Some v' => text_at v' p' | None => None end
                      | _ => None
                      end
  end.
Fixpoint doc_at (d : doc) (p : list pos) : option doc :=
  match p with
  | [] => Some d
  | PKey k :: p' => match d with
                    | DMap l => match dict_get l k with Some d' => doc_at d' p' | None => None end
                    | _ => None
                    end
  | PIndex n :: p' => match d with
                      | DArr l => match nth_error l n with Some d' => doc_at d' p' | None => None end
                      | _ => None
                      end
  end.

(** ** Tidy texts *)

(** The text without blanks, junk, empty slots and missing values, with the commas
    of strict texts and with the ignored bytes of its scalars removed. *)
Fixpoint tidy (v : jtext) : jtext :=
  match v with
  | JTok t => JTok (squeeze t)
  | JStr b => JStr b
  | JArr l => JArr (tidy_elems l)
  | JMap l => JMap (tidy_members l)
  end
with tidy_elems (l : jelems) : jelems :=
  match l with
  | ENil _ => ENil []
  | ECons _ v _ _ rest =>
      let r := tidy_elems rest in
      if present v then ECons [] (tidy v) [] (negb (last_elem r)) r else r
  end
with tidy_members (l : jmembers) : jmembers :=
  match l with
  | MNil _ => MNil []
  | MCons _ k _ _ v _ _ rest =>
      let r := tidy_members rest in
      if present v then MCons [] k [] [] (tidy v) [] (negb (last_member r)) r else r
  end.

(** The members as written. *)
Fixpoint raw_members (l : jmembers) : list (str * jtext) :=
  match l with
  | MNil _ => []
  | MCons _ k _ _ v _ _ rest => (k, v) :: raw_members rest
  end.

(** The object text with the single member x. *)
Definition alone (v : jtext) : jtext := JMap (MCons [] (lit "x") [] [] v [] false (MNil [])).
