(** * Specification: documents, and which document an object represents *)
From Coq Require Import Ascii String List NArith ZArith Bool.
From Verif Require Import GoStr GoNum GoFloat Heap SpecDict SpecWorld.
Import ListNotations.

(** A JSON document.  Scalars keep their Go type; [DErr] is an error, by its
    message; [DTexts] is a list of texts (a []error or a []string).  The errors of a
    document are those built by errors.New or fmt.Errorf. *)
Inductive doc :=
| DNull
| DScal (s : scalar)
| DErr (s : str)
| DTexts (l : list str)
| DArr (l : list doc)
| DMap (l : list (str * doc)).

(** Which nils count as null besides the nil interface value: none, or a nil [*Value]
    and, if [typed], nil pointers. *)
Inductive nils := NoNils | Nils (typed : bool).
Coercion Nils : bool >-> nils.
Definition nil_values (n : nils) : bool := match n with NoNils => false | Nils _ => true end.
Definition nil_pointers (n : nils) : bool := match n with NoNils => false | Nils b => b end.

(** Objects of a world [w] that represent documents.  [F] is the set of
    identities the representation may use; [tn] says which nils count as null. *)
Section Rep.
  Context (tn : nils) (w : world) (F : nat -> Prop).

  Inductive rep_obj : iface -> doc -> Prop :=
  | rep_nil : rep_obj INil DNull
  | rep_nilptr i : nil_pointers tn = true -> nil_object i = true -> rep_obj i DNull
  | rep_scal s : rep_obj (IScal s) (DScal s)
  | rep_ptr t p s : F p -> w_var w p = Some s -> stype_of s = t -> rep_obj (IPtr t (Some p)) (DScal s)
  | rep_err s : rep_obj (IErr s) (DErr s)
  | rep_perr e s : e = Plain s \/ (exists n, e = Typed n s) -> rep_obj (IPErr (Some e)) (DErr s)
  | rep_errs l : rep_obj (IErrs (map Plain l)) (DTexts l)
  | rep_strs l : rep_obj (IStrs l) (DTexts l)
  | rep_perrs l : rep_obj (IPErrs (Some (map Plain l))) (DTexts l)
  | rep_pstrs l : rep_obj (IPStrs (Some l)) (DTexts l)
  | rep_map i m d es :
      i = IMap m \/ i = IPMap (Some m) ->
      F m -> w_map w m = Some d -> rep_members d es -> rep_obj i (DMap es)
  | rep_arr i a l ds :
      i = IArr a \/ i = IPArr (Some a) ->
      F a -> w_arr w a = Some l -> rep_elems l ds -> rep_obj i (DArr ds)
  with rep_value : option nat -> doc -> Prop :=
  | rep_none : nil_values tn = true -> rep_value None DNull
  | rep_some v i d : F v -> w_val w v = Some i -> rep_obj i d -> rep_value (Some v) d
  with rep_elems : list (option nat) -> list doc -> Prop :=
  | rep_enil : rep_elems [] []
  | rep_econs o d l ds : rep_value o d -> rep_elems l ds -> rep_elems (o :: l) (d :: ds)
  with rep_members : dict (option nat) -> list (str * doc) -> Prop :=
  | rep_mnil : rep_members [] []
  | rep_mcons k o d l ds : rep_value o d -> rep_members l ds -> rep_members ((k, o) :: l) ((k, d) :: ds).
End Rep.

(** ** Positions in a structure *)
Inductive pos := PKey (k : str) | PIndex (n : nat).

(** The container [c] holds the value [v] at position [p]. *)
Definition slot (w : world) (c : nat) (p : pos) (v : nat) : Prop :=
  match p with
  | PKey k => exists d, w_map w c = Some d /\ dict_get d k = Some (Some v)
  | PIndex n => exists l, w_arr w c = Some l /\ nth_error l n = Some (Some v)
  end.

(** The map, array or variable an interface value refers to. *)
Definition refers (i : iface) : option nat :=
  match i with
  | IMap m => Some m
  | IPMap o => o
  | IArr a => Some a
  | IPArr o => o
  | IPtr _ o => o
  | _ => None
  end.

(** The value, and the map, array or variable in it, found from the container [c] by
    following a path. *)
Inductive object_at (w : world) (c : nat) : list pos -> nat -> Prop :=
| oa_here : object_at w c [] c
| oa_in p v i l : value_at w c p v -> w_val w v = Some i -> refers i = Some l -> object_at w c p l
with value_at (w : world) (c : nat) : list pos -> nat -> Prop :=
| va p x c' v : object_at w c p c' -> slot w c' x v -> value_at w c (p ++ [x]) v.

(** No two paths lead to the same value, map, array or variable. *)
Definition no_sharing (w : world) (c : nat) : Prop :=
  (forall p q v, value_at w c p v -> value_at w c q v -> p = q)
  /\ (forall p q l, object_at w c p l -> object_at w c q l -> p = q).

(** No map or array found from [c] contains itself. *)
Definition acyclic (w : world) (c : nat) : Prop :=
  forall p x q, object_at w c p x -> object_at w x q x -> q = [].
