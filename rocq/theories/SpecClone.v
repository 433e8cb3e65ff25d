(** * Specification: the content of a structure, and copies of it

    Independent of the model except for the types of Go interface values and of
    the environment ([ext]). *)
From Coq Require Import Ascii String List NArith ZArith Bool.
From Verif Require Import GoStr GoNum GoFloat Heap Common SpecDict SpecWorld SpecDoc.
Import ListNotations.

(** What a structure holds, down to the Go values at its leaves: a nil [*Value], a
    Go value that is neither a container nor a pointer to a variable, a pointer to a
    variable, an array, a map.  [HMap] does not tell Map from *Map, nor [HArr] Array
    from *Array. *)
Inductive content :=
| HNone
| HLeaf (i : iface)
| HVar (s : scalar)
| HArr (l : list content)
| HMap (l : list (str * content)).

Definition leaf (i : iface) : Prop := refers i = None.

Section Content.
  Context (w : world) (F : nat -> Prop).

  Inductive holds_obj : iface -> content -> Prop :=
  | ho_leaf i : leaf i -> holds_obj i (HLeaf i)
  | ho_var t p s : F p -> w_var w p = Some s -> stype_of s = t -> holds_obj (IPtr t (Some p)) (HVar s)
  | ho_map i m d es :
      i = IMap m \/ i = IPMap (Some m) ->
      F m -> w_map w m = Some d -> holds_members d es -> holds_obj i (HMap es)
  | ho_arr i a l ks :
      i = IArr a \/ i = IPArr (Some a) ->
      F a -> w_arr w a = Some l -> holds_elems l ks -> holds_obj i (HArr ks)
  with holds_value : option nat -> content -> Prop :=
  | hv_none : holds_value None HNone
  | hv_some v i k : F v -> w_val w v = Some i -> holds_obj i k -> holds_value (Some v) k
  with holds_elems : list (option nat) -> list content -> Prop :=
  | he_nil : holds_elems [] []
  | he_cons o k l ks : holds_value o k -> holds_elems l ks -> holds_elems (o :: l) (k :: ks)
  with holds_members : dict (option nat) -> list (str * content) -> Prop :=
  | hm_nil : holds_members [] []
  | hm_cons x o k l ks : holds_value o k -> holds_members l ks -> holds_members ((x, o) :: l) ((x, k) :: ks).
End Content.

(** The messages of a list of errors, if none of them is nil. *)
Fixpoint error_messages (l : list goerr) : option (list str) :=
  match l with
  | [] => Some []
  | NoError :: _ => None
  | Plain s :: l | Typed _ s :: l => match error_messages l with Some ms => Some (s :: ms) | None => None end
  end.

(** What happens to a Go value that is neither a container nor a pointer to a variable:
    it is copied, or rejected with an error, or the program panics.  Copied as they
    are: nil, scalars and times; a time.Time becomes a *time.Time.  Nil pointers count as nil when the environment says
    so.  An error becomes a pointer to an error rebuilt from the message, and a list of
    errors is rebuilt message by message, unless one of them is nil; a pointer to a function and a
    value of the one supported foreign type become strings.  An exec.ExitError becomes an
    error with its message, and a pointer to one or to a url.Error a pointer to such an
    error.  Nested Values, lists of
    strings, pointers to lists, functions and all other types are rejected. *)
Inductive fate := Copied (j : iface) | Rejected (e : err) | Crashes.
Definition foreign : str := lit "map[string]map[string][][]string".
Definition fate_of (X : ext) (i : iface) : fate :=
  match i with
  | INil | IScal _ | ITime (Some _) => Copied i
  | ITimeV t => Copied (ITime (Some t))
  | IErr s | IPErr (Some (Plain s)) | IPErr (Some (Typed _ s)) => Copied (IPErr (Some (Plain (x_errorf X s))))
  | IPErr (Some NoError) => Crashes
  | IErrs l => if x_is_array X TErrs then Rejected EType
               else match error_messages l with
                    | Some ms => Copied (IErrs (map (fun s => Plain (x_errorf X s)) ms))
                    | None => Crashes
                    end
  | IStrs _ => Rejected (if x_is_array X TStrs then EType else EUnsupported)
  | IPFunc (Some _) => Copied (IScal (SStr (lit "*func(string) []error")))
  | IOther n (Some _) => if str_eqb n foreign then Copied (IScal (SStr n))
                         else if str_eqb n (lit "exec.ExitError") then Copied (IErr (x_errorf X (x_sprint X i)))
                         else if str_eqb n (lit "*exec.ExitError") || str_eqb n (lit "*url.Error")
                         then Copied (IPErr (Some (Plain (x_errorf X (x_sprint X i)))))
                         else Rejected EUnsupported
  | IOther n None => if x_typed_nil X then Copied INil
                     else if str_eqb n foreign then Copied (IScal (SStr n))
                     else if str_eqb n (lit "exec.ExitError") || str_eqb n (lit "*exec.ExitError") || str_eqb n (lit "*url.Error")
                     then Crashes
                     else Rejected EUnsupported
  | IPErrs (Some _) => Rejected (if x_is_array X TPErrs then EType else EUnsupported)
  | IPStrs (Some _) => Rejected (if x_is_array X TPStrs then EType else EUnsupported)
  | IPErrs None => if x_typed_nil X then Copied INil else Rejected (if x_is_array X TPErrs then ECloneNil else EUnsupported)
  | IPStrs None => if x_typed_nil X then Copied INil else Rejected (if x_is_array X TPStrs then ECloneNil else EUnsupported)
  | IPFunc None => Copied (if x_typed_nil X then INil else IScal (SStr (lit "*func(string) []error")))
  | IPtr _ None | IPErr None | ITime None => if x_typed_nil X then Copied INil else Crashes
  | IPMap None | IPArr None => if x_typed_nil X then Copied INil else Rejected ECloneNil
  | IPVal None => if x_typed_nil X then Copied INil else Rejected EUnsupported
  | _ => Rejected EUnsupported
  end.

Section Copy.
  Context (X : ext).

  (** The copy of a content: the same keys, order and values; a nil [*Value] becomes a
      Value holding nil. *)
  Fixpoint copy (k : content) : content :=
    match k with
    | HNone => HLeaf INil
    | HLeaf i => HLeaf (match fate_of X i with Copied j => j | _ => i end)
    | HVar s => HVar s
    | HArr l => HArr (map copy l)
    | HMap l => HMap (map (fun xk => (fst xk, copy (snd xk))) l)
    end.

  (** The errors of its leaves, in order. *)
  Fixpoint rejects (k : content) : list err :=
    match k with
    | HLeaf i => match fate_of X i with Rejected e => [e] | _ => [] end
    | HArr l => flat_map rejects l
    | HMap l => flat_map (fun xk => rejects (snd xk)) l
    | _ => []
    end.

  (** Some array in it has a nil [*Value] element, or some leaf crashes. *)
  Definition is_none (k : content) : bool := match k with HNone => true | _ => false end.
  Fixpoint crashes (k : content) : bool :=
    match k with
    | HLeaf i => match fate_of X i with Crashes => true | _ => false end
    | HArr l => existsb (fun x => is_none x || crashes x) l
    | HMap l => existsb (fun xk => crashes (snd xk)) l
    | _ => false
    end.
End Copy.

(** The object a call changes. *)
Definition target (c : api) : option nat :=
  match c with
  | AMapSetValue m _ _ | AMapSet m _ _ | AMapSetScalarValue m _ _ | AMapRemoveKey m _ => Some m
  | AArrAppendValue a _ | AArrAppend a _ | AArrSetValueAtIndex a _ _ | AArrRemoveValueAtIndex a _ => Some a
  | AValSetObject v _ => Some v
  | AVarSet p _ => Some p
  | _ => None
  end.

(** The document a clone represents: the same, except that each message of an error
    or of a list of errors has been used as a format. *)
Fixpoint copy_doc (X : ext) (d : doc) : doc :=
  match d with
  | DErr s => DErr (x_errorf X s)
  | DTexts l => DTexts (map (x_errorf X) l)
  | DArr l => DArr (map (copy_doc X) l)
  | DMap l => DMap (map (fun kd => (fst kd, copy_doc X (snd kd))) l)
  | _ => d
  end.

(** Contents whose leaves are nil, scalars, times and pointers to variables. *)
Inductive plain : content -> Prop :=
| pl_nil : plain (HLeaf INil)
| pl_scal s : plain (HLeaf (IScal s))
| pl_time t : plain (HLeaf (ITime (Some t)))
| pl_var s : plain (HVar s)
| pl_arr l : Forall plain l -> plain (HArr l)
| pl_map l : Forall (fun xk => plain (snd xk)) l -> plain (HMap l).
