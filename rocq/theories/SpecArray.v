(** * Specification: reading a whole array as numbers, booleans or strings

    Independent of the model of the getters. *)
From Coq Require Import Ascii String List NArith ZArith Bool.
From Verif Require Import GoStr GoNum GoFloat Heap SpecWorld SpecNum.
Import ListNotations.
Local Open Scope Z_scope.

(** The answers [rs] of the elements make one answer: all of them in order, or
    no slice and the errors of all failing elements in order. *)
Definition errors_of {A} (r : gres A) : list err := match r with GErr e => e | GVal _ => [] end.
Definition collected {A} (rs : list (gres A)) (r : gres (list A)) : Prop :=
  (exists xs, rs = map GVal xs /\ r = GVal xs)
  \/ ((exists e, In (GErr e) rs) /\ r = GErr (concat (map errors_of rs))).

(** What a pointer getter answers makes the answer of the Value getter. *)
Definition required {A} (p : gres (option A)) (r : gres A) : Prop :=
  match p with
  | GVal (Some x) => r = GVal x
  | GVal None => exists e, r = GErr [e]
  | GErr es => r = GErr es
  end.

(** What the element's own getter [get], a method of Value, answers; a nil element
    gives nil or, where nil cannot be represented, an error. *)
Definition own {A} (get : nat -> res (gres (option A))) (o : option nat) (r : gres (option A)) : Prop :=
  match o with None => r = GVal None | Some v => get v = Ok r end.
Definition own_value {A} (get : nat -> res (gres A)) (o : option nat) (r : gres A) : Prop :=
  match o with None => r = GErr [ENullElem] | Some v => get v = Ok r end.

(** The integer of type [k] a scalar is read as. *)
Definition reads_int (is64 : bool) (k : ikind) (s : scalar) (z : Z) : Prop :=
  match s with
  | SInt _ y => z = y /\ fits is64 k z
  | SStr t => (is_signed k /\ signed_numeral t z \/ ~ is_signed k /\ numeral t z) /\ fits is64 k z
  | _ => False
  end.
(** The text NULL is nil for the unsigned getters. *)
Definition null_int (k : ikind) (s : scalar) : Prop := ~ is_signed k /\ s = SStr (lit "NULL").

Definition reads_bool (s : scalar) (b : bool) : Prop :=
  match s with
  | SBool c => b = c
  | SStr t => b = true /\ (t = lit "1" \/ t = lit "true") \/ b = false /\ (t = lit "0" \/ t = lit "false")
  | _ => False
  end.

Definition reads_str (s : scalar) (t : str) : Prop := s = SStr t.
Definition never (s : scalar) : Prop := False.

(** What one element, a nil or non-nil [*Value], answers. *)
Inductive elem_as {A} (w : world) (null : scalar -> Prop) (reads : scalar -> A -> Prop)
  : option nat -> gres (option A) -> Prop :=
| Elem_nil : elem_as w null reads None (GVal None)
| Elem_null v i : w_val w v = Some i -> nil_object i = true -> elem_as w null reads (Some v) (GVal None)
| Elem_null_scalar v i s : w_val w v = Some i -> scalar_of w i = Some s -> null s ->
    elem_as w null reads (Some v) (GVal None)
| Elem_reads v i s x : w_val w v = Some i -> scalar_of w i = Some s -> reads s x ->
    elem_as w null reads (Some v) (GVal (Some x))
| Elem_fails v i e : w_val w v = Some i -> cat_of w i <> None ->
    (forall s, scalar_of w i = Some s -> ~ null s /\ forall x, ~ reads s x) ->
    elem_as w null reads (Some v) (GErr [e]).

(** nil, or what a JSON document is made of. *)
Definition plain (w : world) (o : option nat) : Prop :=
  match o with
  | None => True
  | Some v => exists i, w_val w v = Some i /\ (nil_object i = true \/ cat_of w i <> None)
  end.
(** The stored scalar, if the element is one. *)
Definition elem_scalar (w : world) (o : option nat) : option scalar :=
  match o with
  | None => None
  | Some v => match w_val w v with Some i => scalar_of w i | None => None end
  end.

(** nil, or a string. *)
Definition text_elem (w : world) (o : option nat) : Prop :=
  match o with
  | None => True
  | Some v => exists i, w_val w v = Some i
      /\ (nil_object i = true \/ exists t, scalar_of w i = Some (SStr t))
  end.
