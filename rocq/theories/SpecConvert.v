(** * Specification: the string any Go value is converted to

    ConvertInterfaceValueToStringValue looks at the object a Value holds, or at the
    value itself if it is no Value. *)
From Coq Require Import Ascii String List NArith ZArith Bool.
From Verif Require Import GoStr GoNum GoFloat Heap Common SpecDict SpecNum SpecWorld SpecDoc SpecRender SpecClone SpecErr SpecWrite.
Import ListNotations.

(** A text, an error instead of one, or a panic. *)
Inductive said := Says (t : str) | NoText | Crash.

(** A string is its own text, another scalar has its JSON text. *)
Definition plain_text (s : scalar) (t : str) : Prop :=
  match s with SStr u => t = u | _ => shows (DScal s) t end.

(** The value itself, or the object held by the Value it is. *)
Definition looked_at (w : world) (i : iface) : option iface :=
  match i with IVal v | IPVal (Some v) => w_val w v | _ => Some i end.

Section Convert.
  Context (X : ext) (w : world).

  (** Objects without a text: nil, containers, lists, functions, time.Time and most
      other types; also nil pointers if the environment's type function says nil for
      them. *)
  Definition textless (i : iface) : Prop :=
    match i with
    | INil | IMap _ | IPMap _ | IArr _ | IPArr _ | IErrs _ | IPErrs _ | IStrs _ | IPStrs _ | IFunc _ | IPFunc _ | ITimeV _ => True
    | IPtr _ None | IPErr None | IPVal None | ITime None => x_typed_nil X = true
    | IOther n d => d = None /\ x_typed_nil X = true \/ n <> foreign /\ ~ In n written_as_error
    | _ => False
    end.

  (** The text of an object. *)
  Inductive held_says : iface -> said -> Prop :=
  | hs_scal i s t : scalar_of w i = Some s -> plain_text s t -> held_says i (Says t)
  | hs_err i s : error_object i s -> held_says i (Says s)
  | hs_time t : held_says (ITime (Some t)) (Says (x_time X t))
  | hs_name d : counts X d -> held_says (IOther foreign d) (Says foreign)
  | hs_error n d : In n written_as_error -> held_says (IOther n (Some d)) (Says (x_sprint X (IOther n (Some d))))
  | hs_nested i v o : i = IVal v \/ i = IPVal (Some v) -> w_val w v = Some o -> held_says i (Says (x_sprint X o))
  | hs_none i : textless i -> held_says i NoText
  | hs_crash i :
      x_typed_nil X = false ->
      (exists t, i = IPtr t None) \/ i = IPErr None \/ i = IPVal None \/ i = ITime None
        \/ (exists n, In n written_as_error /\ i = IOther n None) ->
      held_says i Crash
  | hs_no_error : held_says (IPErr (Some NoError)) Crash.

  (** The text of a Go value: null for nil and nil pointers, though not for a Value that
      holds nil. *)
  Inductive says (i : iface) : said -> Prop :=
  | sa_nil : nil_object i = true -> says i (Says (lit "null"))
  | sa_object o r : nil_object i = false -> looked_at w i = Some o -> held_says o r -> says i r.
End Convert.

(** What is said of several values together: their texts, or the number of those without
    one, or a panic. *)
Fixpoint texts_said (l : list said) : list str :=
  match l with [] => [] | Says t :: l => t :: texts_said l | _ :: l => texts_said l end.
Fixpoint textless_said (l : list said) : nat :=
  match l with [] => 0 | NoText :: l => S (textless_said l) | _ :: l => textless_said l end.
