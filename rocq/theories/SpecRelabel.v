(** * Specification: programs that write other strings into the slice that GetKeys returns

    GetKeys hands out the slice of the map itself.  A program that writes into it (to change
    the case of the names for display, say) changes what the map lists and writes, but not
    what it holds. *)
From Coq Require Import Ascii String List NArith ZArith Bool.
From Verif Require Import GoStr GoNum GoFloat Heap SpecDict SpecWorld SpecValues.
Import ListNotations.

(** A program makes calls, and writes into slices of keys: m.GetKeys()[i] = k. *)
Inductive relabel :=
| Rcall (c : api)
| Rwrite (m i : nat) (k : str).

(** The program without the writes. *)
Definition without_writes (ss : list relabel) : list api :=
  flat_map (fun s => match s with Rcall c => [c] | Rwrite _ _ _ => [] end) ss.

(** What GetKeys() lists, by the map. *)
Definition names := nat -> list str.
Definition nput (ns : names) (m : nat) (l : list str) : names := fun x => if Nat.eqb x m then l else ns x.

(** Setting a key that the map does not hold, or any key of a map that lists nothing, lists it
    last.  Setting another one sets the element of Values() at the place where it is listed, if it
    is. *)
Definition is_new (d : dict (option nat)) (k : str) (l : list str) : bool :=
  negb (dict_has d k) || match l with [] => true | _ => false end.
Definition names_set d k (l : list str) : list str := if is_new d k l then l ++ [k] else l.
Definition values_set d k (o : option nat) (l : list str) (vs : list (option nat)) : list (option nat) :=
  if is_new d k l then vs ++ [o]
  else match key_position l k with Some n => list_set vs n o | None => vs end.
(** Removing a key that the map holds removes it where it is listed first, if it is. *)
Definition remove_at {A} (d : dict (option nat)) (k : str) (l : list str) (xs : list A) : list A :=
  if dict_has d k then match key_position l k with Some n => list_remove xs n | None => xs end else xs.

Definition names_after (c : api) (w : world) (ns : names) : names :=
  match c with
  | ANewMap => nput ns (S (w_next w)) []
  | AMapSetValue m k _ | AMapSet m k _ | AMapSetScalarValue m k _ => nput ns m (names_set (map_at w m) k (ns m))
  | AMapRemoveKey m k => nput ns m (remove_at (map_at w m) k (ns m) (ns m))
  | _ => ns
  end.
Definition values_after (c : api) (w : world) (ns : names) (vs : lists) : lists :=
  match c with
  | ANewMap => lput vs (S (w_next w)) []
  | AMapSetValue m k o => lput vs m (values_set (map_at w m) k o (ns m) (vs m))
  | AMapSet m k _ => lput vs m (values_set (map_at w m) k (Some (w_next w)) (ns m) (vs m))
  | AMapSetScalarValue m k _ => lput vs m (values_set (map_at w m) k (Some (S (w_next w))) (ns m) (vs m))
  | AMapRemoveKey m k => lput vs m (remove_at (map_at w m) k (ns m) (vs m))
  | _ => vs
  end.

(** Calls return what they return without the writes, but for GetKeys(), Values() and the error
    of RemoveKey: the key may be held without being listed. *)
Definition result_of (c : api) (w : world) (ns : names) (vs : lists) : out :=
  match c with
  | AMapGetKeys m => OKeys (ns m)
  | AMapValues m => OElems (vs m)
  | AMapRemoveKey m k =>
      if dict_has (map_at w m) k
      then OFlag true (match key_position (ns m) k with Some _ => false | None => true end)
      else OFlag false true
  | _ => fst (spec_call c w)
  end.

Definition spec_relabel (s : relabel) (w : world) (ns : names) (vs : lists) : out * world * names * lists :=
  match s with
  | Rcall c => (result_of c w ns vs, snd (spec_call c w), names_after c w ns, values_after c w ns vs)
  | Rwrite m i k => (ODone, w, nput ns m (list_set (ns m) i k), vs)
  end.
Fixpoint spec_relabels (ss : list relabel) (w : world) (ns : names) (vs : lists) : list out * world * names * lists :=
  match ss with
  | [] => ([], w, ns, vs)
  | s :: t => let '(o, w1, ns1, vs1) := spec_relabel s w ns vs in
              let '(os, w2, ns2, vs2) := spec_relabels t w1 ns1 vs1 in (o :: os, w2, ns2, vs2)
  end.

(** Handles denote objects, and the indexes of writes are in range. *)
Fixpoint ok_relabels (ss : list relabel) (w : world) (ns : names) (vs : lists) : Prop :=
  match ss with
  | [] => True
  | s :: t => match s with Rcall c => ok_call w c | Rwrite m i k => has (w_map w) m /\ (i < length (ns m))%nat end
              /\ let '(_, w1, ns1, vs1) := spec_relabel s w ns vs in ok_relabels t w1 ns1 vs1
  end.
Definition names_of (w : world) : names := fun m => dict_keys (map_at w m).

(** Objects that hold, at any depth, no map that lists other names than it holds: a set of values,
    maps and arrays with everything in them. *)
Definition inside (U : nat -> Prop) (i : iface) : Prop :=
  match i with
  | IMap x | IPMap (Some x) | IArr x | IPArr (Some x) | IVal x | IPVal (Some x) => U x
  | _ => True
  end.
Definition handle_inside (U : nat -> Prop) (o : option nat) : Prop := match o with Some v => U v | None => True end.
Definition as_held (w : world) (ns : names) (U : nat -> Prop) : Prop :=
  (forall m d, U m -> w_map w m = Some d -> ns m = dict_keys d /\ Forall (handle_inside U) (dict_values d))
  /\ (forall a l, U a -> w_arr w a = Some l -> Forall (handle_inside U) l)
  /\ (forall v i, U v -> w_val w v = Some i -> inside U i).

(** The text of a map: a member for every name that is listed, in their order.  [t k] is the text
    of the value that is held under [k]. *)
Definition listed_member (d : dict (option nat)) (t : str -> str) (k : str) : str :=
  match dict_get d k with Some (Some _) => t k | _ => lit "null" end.
