(** * The slice of keys of a Map, with its backing arrays (/repo/json/Map.go)

    MapModel.v keeps the content of [internal_keys]; this file keeps the Go slice,
    because GetKeys hands out the slice itself and not a copy. *)
From Coq Require Import Ascii String List NArith ZArith Bool.
From Verif Require Import GoStr Heap MapModel SpecWorld.
Import ListNotations.

(** A slice that starts at the beginning of its backing array (all slices of
    Map.go do, except the source [internal_keys[i+1:]] of a copy). *)
Record slice := Slice { s_base : nat; s_len : nat; s_cap : nat }.

(** The backing arrays. *)
Definition smem := list (list str).

(** The elements [s[0]], ..., [s[len(s)-1]]. *)
Definition content (mem : smem) (s : slice) : list str := firstn (s_len s) (nth (s_base s) mem []).

(** Overwrite the elements from index [i] on. *)
Fixpoint overwrite (l : list str) (i : nat) (xs : list str) : list str :=
  match xs with [] => l | x :: t => overwrite (upd l i x) (S i) t end.

(** [append(s, xs...)]: in place when the capacity suffices, otherwise in a new
    backing array.  [grow] chooses its capacity (the Go specification leaves it
    open); the elements are read before they are written, as with memmove. *)
Definition go_append (grow : smem -> nat) (mem : smem) (s : slice) (xs : list str) : smem * slice :=
  let n := s_len s + length xs in
  if Nat.leb n (s_cap s) then
    (upd mem (s_base s) (overwrite (nth (s_base s) mem []) (s_len s) xs), Slice (s_base s) n (s_cap s))
  else
    let c := Nat.max n (grow mem) in
    (mem ++ [content mem s ++ xs ++ repeat [] (c - n)], Slice (length mem) n c).

(** [internal_keys] of one map, Map.go:174. *)
Record kmap := KMap { k_mem : smem; k_keys : slice }.

(** [internal_keys := []string{}], Map.go:174. *)
Definition k_new : kmap := KMap [[]] (Slice 0 0 0).

Definition k_content (K : kmap) : list str := content (k_mem K) (k_keys K).

(** setInternalValue, Map.go:239-247: the key is appended when it is not there.
    (hasKey looks at [internal_map]; c20_keys_values says that it agrees.) *)
Definition k_set (grow : smem -> nat) (k : str) (K : kmap) : kmap :=
  match find_index k (k_content K) with
  | Some _ => K
  | None => let (mem, s) := go_append grow (k_mem K) (k_keys K) [k] in KMap mem s
  end.

(** removeKey, Map.go:185-194:
    [internal_keys = append(internal_keys[:i], internal_keys[i+1:]...)]. *)
Definition k_remove (grow : smem -> nat) (k : str) (K : kmap) : kmap :=
  match find_index k (k_content K) with
  | None => K
  | Some i =>
      let s := k_keys K in
      let (mem, s') := go_append grow (k_mem K) (Slice (s_base s) i (s_cap s)) (skipn (S i) (k_content K)) in
      KMap mem s'
  end.

(** GetKeys, Map.go:196-198,575-577: the slice itself. *)
Definition k_GetKeys (K : kmap) : slice := k_keys K.

(** A write [s[i] = x] of the program to a slice that it got from GetKeys. *)
Definition k_write (s : slice) (i : nat) (x : str) (K : kmap) : kmap :=
  KMap (upd (k_mem K) (s_base s) (upd (nth (s_base s) (k_mem K) []) i x)) (k_keys K).

Inductive kop := KSet (k : str) | KRemove (k : str).
Definition k_step (grow : smem -> nat) (o : kop) (K : kmap) : kmap :=
  match o with KSet k => k_set grow k K | KRemove k => k_remove grow k K end.
Fixpoint k_run (grow : smem -> nat) (os : list kop) (K : kmap) : kmap :=
  match os with [] => K | o :: t => k_run grow t (k_step grow o K) end.

(** What a call does to the keys of the map [m]. *)
Definition key_op (m : nat) (c : api) : list kop :=
  match c with
  | AMapSetValue m' k _ | AMapSet m' k _ | AMapSetScalarValue m' k _ => if Nat.eqb m' m then [KSet k] else []
  | AMapRemoveKey m' k => if Nat.eqb m' m then [KRemove k] else []
  | _ => []
  end.
Definition key_ops (m : nat) (cs : list api) : list kop := flat_map (key_op m) cs.
