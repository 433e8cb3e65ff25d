(** * Specification: what Parse makes of every text

    The reader of SpecPanic.v follows a text and keeps no documents.  Here it reports what
    it meets, and the reports are put together to a document and errors. *)
From Coq Require Import Ascii String List NArith ZArith Bool.
From Verif Require Import GoStr GoNum GoFloat Heap SpecDict SpecNum SpecFloat SpecDoc SpecText SpecToken SpecParse
  SpecPanic SpecScalar.
Import ListNotations.

(** A key (the bytes between its quotes), the beginning of a container, the bytes of a
    value, the end of a container. *)
Inductive event := Named (k : str) | Opens (k : kind) | Holds (v : str) | Closes.

(** What the byte [b] brings to an end or begins; [name]: the bytes of the key so far. *)
Definition report (q quoted : bool) (b : ascii) (r : reading) (name : str) : list event :=
  match r_place r with
  | PKeys => if Ascii.eqb b c_rb then [Closes] else []
  | PName => if q then [Named name] else []
  | PColon => []
  | PBefore | PValue =>
      if q && negb quoted then [Holds (r_value r ++ [b])]
      else if quoted then []
      else if Ascii.eqb b c_lb then [Opens KObject]
      else if Ascii.eqb b c_ls then [Opens KArray]
      else if Ascii.eqb b c_rb || Ascii.eqb b c_rs then [Holds (r_value r); Closes]
      else if Ascii.eqb b c_com then [Holds (r_value r)]
      else []
  end.
Definition name_after (q : bool) (b : ascii) (r : reading) (name : str) : str :=
  match r_place r with
  | PKeys => []
  | PName => if q then name else name ++ [b]
  | _ => name
  end.

Fixpoint events_from (prev : option ascii) (s : str) (r : reading) (name : str) : list event :=
  match s with
  | [] => []
  | b :: t =>
      let q := Ascii.eqb b c_dq
               && match prev with Some p => negb (Ascii.eqb p c_bs) | None => true end in
      let quoted := if q then negb (r_quoted r) else r_quoted r in
      match read_byte q quoted b r with
      | None => []
      | Some r' => report q quoted b r name ++ events_from (Some b) t r' (name_after q b r name)
      end
  end.
Definition events (s : str) : list event := events_from None s start [].

(** What the bytes of a value denote: text in double quotes, or an unquoted scalar. *)
Inductive value_means : str -> tokres -> Prop :=
| vm_string v u b :
    trimmed v u -> unescape (latin1 u) = c_dq :: b ++ [c_dq] -> value_means v (TokDoc (DScal (SStr b)))
| vm_quote v u :
    trimmed v u -> In c_dq (unescape (latin1 u)) -> (forall b, unescape (latin1 u) <> c_dq :: b ++ [c_dq]) ->
    value_means v (TokErr [EValQuote])
| vm_scalar v u r :
    trimmed v u -> ~ In c_dq (unescape (latin1 u)) -> reads (squeeze (unescape (latin1 u))) r -> value_means v r.

(** ** Putting the reports together *)

Inductive content := Members (l : list (str * doc)) | Elements (l : list doc).
Definition finished (c : content) : doc := match c with Members l => DMap l | Elements l => DArr l end.
Definition add (k : str) (d : doc) (c : content) : content :=
  match c with Members l => Members (dict_set l k d) | Elements l => Elements (l ++ [d]) end.

Record work := Work {
  w_open : list (content * str);  (* the open containers, innermost first, and their keys *)
  w_name : str;                   (* the last key *)
  w_top : option doc;             (* the first container that was closed with no other open *)
  w_errs : list err }.
Definition nothing : work := Work [] [] None [].

Definition empty_of (k : kind) : content := match k with KObject => Members [] | KArray => Elements [] end.

Section Put.
  Context (V : str -> tokres).

  Definition put_event (w : work) (e : event) : work :=
    match e with
    | Named k => Work (w_open w) k (w_top w) (w_errs w)
    | Opens k => Work ((empty_of k, latin1 (w_name w)) :: w_open w) [] (w_top w) (w_errs w)
    | Holds v =>
        match w_open w with
        | [] => Work [] [] (w_top w) (w_errs w ++ [EListEmpty])
        | (c, n) :: o =>
            match V v with
            | TokNone => Work (w_open w) [] (w_top w) (w_errs w)
            | TokDoc d => Work ((add (unescape (latin1 (w_name w))) d c, n) :: o) [] (w_top w) (w_errs w)
            | TokErr e => Work (w_open w) [] (w_top w) (w_errs w ++ e)
            end
        end
    | Closes =>
        match w_open w with
        | [] => w
        | [(c, _)] => Work [] [] (match w_top w with Some d => Some d | None => Some (finished c) end) (w_errs w)
        | (c, n) :: (c', n') :: o => Work ((add n (finished c) c', n') :: o) [] (w_top w) (w_errs w)
        end
    end.

  (** Close what is still open. *)
  Definition put_events (l : list event) : work :=
    let w := fold_left put_event l nothing in
    fold_left put_event (repeat Closes (length (w_open w))) w.
End Put.

(** The errors of a text without braces around it, and of one whose brackets or quotes do
    not add up outside quotations. *)
Definition wrap_errs (s : str) : list err :=
  (match s with [] => [EEmpty] | _ => [] end)
  ++ (if has_prefix [c_lb] s then [] else [ENoOpen])
  ++ (if has_suffix [c_rb] s then [] else [ENoClose]).
Definition balance_errs (s : str) : list err :=
  let (o, q) := outside None false s in
  (if Nat.eqb (occurrences c_lb o) (occurrences c_rb o) then [] else [EBrackets])
  ++ (if Nat.eqb (occurrences c_ls o) (occurrences c_rs o) then [] else [ESquares])
  ++ (if q then [EQuotes] else []).

(** The result on [s], when it is not a panic. *)
Definition verdict (V : str -> tokres) (s : str) : gres doc :=
  match wrap_errs s with
  | (_ :: _) as e => GErr e
  | [] =>
      let w := put_events V (events s) in
      match w_errs w with
      | (_ :: _) as e => GErr e
      | [] => match balance_errs s with
              | (_ :: _) as e => GErr e
              | [] => match w_top w with Some d => GVal d | None => GErr [] end
              end
      end
  end.

(** How many containers are open after the reports [l]. *)
Definition depth (l : list event) : nat :=
  fold_left (fun n e => match e with Opens _ => S n | Closes => pred n | _ => n end) l 0.
