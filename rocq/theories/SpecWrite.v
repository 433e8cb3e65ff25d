(** * Specification: the text written for any content

    Documents (SpecDoc) cover nil, scalars, errors and containers.  This covers every
    Go value the model has: the text ToJSONString writes, the number of values it has
    no text for, and the contents on which it panics. *)
From Coq Require Import Ascii String List NArith ZArith Bool.
From Verif Require Import GoStr GoNum GoFloat Heap Common SpecDict SpecNum SpecWorld SpecDoc SpecRender SpecClone.
Import ListNotations.

Definition quotes (s : str) : str := [c_dq] ++ s ++ [c_dq].

(** The types of which the name is written. *)
Definition written_by_name : list str :=
  [lit "func(string, *string, string, string) []error"; lit "func(json.Map) []error";
   lit "*func(json.Map) []error"; lit "map[string]map[string][][]string"].

(** The error types of other packages, of which the message is written: *url.Error and
    exec.ExitError, by value or by pointer. *)
Definition written_as_error : list str := [lit "*url.Error"; lit "exec.ExitError"; lit "*exec.ExitError"].

Section Write.
  Context (X : ext).

  (** Nil pointers: null if the environment's type function says nil for them. *)
  Definition nil_pointer (i : iface) : Prop :=
    match i with
    | IPtr _ None | IPMap None | IPArr None | IPErrs None | IPStrs None | IPErr None | IPVal None | IPFunc None => True
    | ITime None | IOther _ None => True
    | _ => False
    end.

  (** Not a nil pointer that counts as null. *)
  Definition counts {A} (o : option A) : Prop := o <> None \/ x_typed_nil X = false.

  (** The text of an error in a list: its message in quotes if it is one of the error
      types the library knows, null for a nil error, otherwise none. *)
  Definition error_text (e : goerr) : option str :=
    match e with
    | NoError => Some (lit "null")
    | Plain s => Some (quote s)
    | Typed n s => if existsb (str_eqb n) written_as_error then Some (quote s) else None
    end.
  Definition text_or_hole (o : option str) : str := match o with Some t => t | None => [] end.
  Definition holes (l : list goerr) : nat :=
    length (filter (fun e => match error_text e with None => true | _ => false end) l).

  (** The message written for a pointer to an error; that of a nil error is what fmt
      prints for a nil. *)
  Definition pointer_text (e : goerr) : str :=
    match e with NoError => lit "%!s(<nil>)" | Plain s | Typed _ s => s end.

  (** Values without a text: nested Values, time.Time, and most other types. *)
  Definition no_text (i : iface) : Prop :=
    match i with
    | IVal _ | IPVal (Some _) | ITimeV _ => True
    | IPVal None => x_typed_nil X = false
    | IOther n d => counts d /\ ~ In n written_by_name /\ ~ In n written_as_error
    | _ => False
    end.

  Inductive writes_leaf : iface -> str -> Prop :=
  | wl_nil : writes_leaf INil (lit "null")
  | wl_pointer i : x_typed_nil X = true -> nil_pointer i -> writes_leaf i (lit "null")
  | wl_scal s t : shows (DScal s) t -> writes_leaf (IScal s) t
  | wl_err s : writes_leaf (IErr s) (quote s)
  | wl_perr e : writes_leaf (IPErr (Some e)) (quote (pointer_text e))
  | wl_list l i : i = IStrs l \/ i = IPStrs (Some l) -> writes_leaf i ([c_ls] ++ commas (map quote l) ++ [c_rs])
  | wl_time t : writes_leaf (ITime (Some t)) (quotes (x_time X t))
  | wl_func f : writes_leaf (IFunc f) (quotes (lit "func(string) []error"))
  | wl_pfunc o : counts o -> writes_leaf (IPFunc o) (quotes (lit "*func(string) []error"))
  | wl_named n d : counts d -> In n written_by_name -> writes_leaf (IOther n d) (quotes n)
  | wl_foreign_error n d :
      counts d -> In n written_as_error -> d <> None \/ n <> lit "*url.Error" ->
      writes_leaf (IOther n d) (quote (x_sprint X (IOther n d))).

  (** [writes k t n]: the text of [k] is [t], with nothing in place of each of the [n]
      values that have no text. *)
  Inductive writes : content -> str -> nat -> Prop :=
  | wr_none : writes HNone (lit "null") 0
  | wr_leaf i t : writes_leaf i t -> writes (HLeaf i) t 0
  | wr_no_text i : no_text i -> writes (HLeaf i) [] 1
  | wr_errors l i :
      i = IErrs l \/ i = IPErrs (Some l) ->
      writes (HLeaf i) ([c_ls] ++ commas (map (fun e => text_or_hole (error_text e)) l) ++ [c_rs]) (holes l)
  | wr_var s t : shows (DScal s) t -> writes (HVar s) t 0
  | wr_elems l ts n : writes_all l ts n -> writes (HArr l) ([c_ls] ++ commas ts ++ [c_rs]) n
  | wr_members es ts n :
      writes_all (map snd es) ts n ->
      writes (HMap es)
        ([c_lb] ++ commas (map (fun kt => quote (fst kt) ++ [c_col] ++ snd kt) (combine (map fst es) ts)) ++ [c_rb]) n
  with writes_all : list content -> list str -> nat -> Prop :=
  | wa_nil : writes_all [] [] 0
  | wa_cons k t n l ts c : writes k t n -> writes_all l ts c -> writes_all (k :: l) (t :: ts) (n + c).

  (** It contains a nil pointer that is not treated as null, other than a nil
      [*Value] or pointer to a function and, of the other types, a nil [*url.Error]. *)
  Inductive panics : content -> Prop :=
  | pa_leaf i :
      x_typed_nil X = false -> nil_pointer i -> i <> IPVal None -> i <> IPFunc None ->
      (forall n d, i = IOther n d -> n = lit "*url.Error") -> panics (HLeaf i)
  | pa_arr k l : In k l -> panics k -> panics (HArr l)
  | pa_map x k l : In (x, k) l -> panics k -> panics (HMap l).

  (** The scalars in it are values of their Go types. *)
  Inductive proper_content : content -> Prop :=
  | pc_none : proper_content HNone
  | pc_leaf i : (forall s, i = IScal s -> proper_scalar (x_is64 X) s) -> proper_content (HLeaf i)
  | pc_var s : proper_scalar (x_is64 X) s -> proper_content (HVar s)
  | pc_arr l : Forall proper_content l -> proper_content (HArr l)
  | pc_map l : Forall (fun xk => proper_content (snd xk)) l -> proper_content (HMap l).
End Write.
