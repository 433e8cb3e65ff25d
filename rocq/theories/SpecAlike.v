(** * Specification: objects with the same content

    A list of pairs links objects of one world with objects of another. *)
From Coq Require Import Ascii String List NArith ZArith Bool.
From Verif Require Import GoStr GoNum GoFloat Heap Common SpecDict SpecWorld.
Import ListNotations.

Definition links := list (nat * nat).

(** No object is linked twice. *)
Definition one_to_one (p : links) : Prop :=
  forall a b a' b', In (a, b) p -> In (a', b') p -> (a = a' <-> b = b').

(** Two handles or nil pointers. *)
Definition same_handle (p : links) (o o' : option nat) : Prop :=
  match o, o' with
  | None, None => True
  | Some a, Some b => In (a, b) p
  | _, _ => False
  end.

(** Two objects held by values: the same, but for linked handles. *)
Definition no_handle (i : iface) : bool :=
  match i with
  | IPtr _ (Some _) | IMap _ | IPMap (Some _) | IArr _ | IPArr (Some _) | IVal _ | IPVal (Some _) => false
  | _ => true
  end.
Inductive same_held (p : links) : iface -> iface -> Prop :=
| sh_plain i : no_handle i = true -> same_held p i i
| sh_ptr t a b : In (a, b) p -> same_held p (IPtr t (Some a)) (IPtr t (Some b))
| sh_map a b : In (a, b) p -> same_held p (IMap a) (IMap b)
| sh_pmap a b : In (a, b) p -> same_held p (IPMap (Some a)) (IPMap (Some b))
| sh_arr a b : In (a, b) p -> same_held p (IArr a) (IArr b)
| sh_parr a b : In (a, b) p -> same_held p (IPArr (Some a)) (IPArr (Some b))
| sh_val a b : In (a, b) p -> same_held p (IVal a) (IVal b)
| sh_pval a b : In (a, b) p -> same_held p (IPVal (Some a)) (IPVal (Some b)).

(** Two objects of the same kind with the same content. *)
Inductive same_object (p : links) (w w' : world) (a b : nat) : Prop :=
| so_map d d' :
    w_map w a = Some d -> w_map w' b = Some d' ->
    Forall2 (fun x y => fst x = fst y /\ same_handle p (snd x) (snd y)) d d' -> same_object p w w' a b
| so_arr l l' :
    w_arr w a = Some l -> w_arr w' b = Some l' -> Forall2 (same_handle p) l l' -> same_object p w w' a b
| so_val i i' :
    w_val w a = Some i -> w_val w' b = Some i' -> same_held p i i' -> same_object p w w' a b
| so_var s :
    w_var w a = Some s -> w_var w' b = Some s -> same_object p w w' a b.

(** The linked objects have the same content and the same sharing. *)
Definition alike (p : links) (w w' : world) : Prop :=
  one_to_one p /\ forall a b, In (a, b) p -> same_object p w w' a b.

(** Objects that hold each other only. *)
Definition oh (o : option nat) : list nat := match o with Some n => [n] | None => [] end.
Definition iface_handles (i : iface) : list nat :=
  match i with
  | IPtr _ o | IPMap o | IPArr o | IPVal o => oh o
  | IMap n | IArr n | IVal n => [n]
  | _ => []
  end.
Definition self_contained (w : world) (S : list nat) : Prop :=
  forall a, In a S ->
    (exists d, w_map w a = Some d /\ forall k b, In (k, Some b) d -> In b S)
    \/ (exists l, w_arr w a = Some l /\ forall b, In (Some b) l -> In b S)
    \/ (exists i, w_val w a = Some i /\ forall b, In b (iface_handles i) -> In b S)
    \/ (exists s, w_var w a = Some s).

(** The text fmt prints for an object does not depend on addresses.  (It is used for the
    object of a Value that is held by a Value.  In Go the text of a *string there is its
    address.) *)
Definition prints_no_address (X : ext) : Prop :=
  forall p i j, same_held p i j -> x_sprint X i = x_sprint X j.
