(** * Specification: what the objects of the library are

    A world of independent objects identified by numbers: maps are
    insertion-ordered dictionaries, arrays are lists, values and variables hold
    one thing each.  A call names the object it acts on, so two handles with the
    same identity are the same object.  Independent of the model except for the
    type of Go interface values ([iface]) and of scalars. *)
From Coq Require Import Ascii String List NArith ZArith Bool.
From Verif Require Import GoStr GoNum GoFloat Heap SpecDict.
Import ListNotations.

Record world := World {
  w_next : nat;                               (* next unused identity *)
  w_map : nat -> option (dict (option nat));  (* maps *)
  w_arr : nat -> option (list (option nat));  (* arrays *)
  w_val : nat -> option iface;                (* values *)
  w_var : nat -> option scalar }.             (* variables scalar pointers point to *)

Definition put {A} (f : nat -> option A) (n : nat) (x : A) : nat -> option A :=
  fun l => if Nat.eqb l n then Some x else f l.

Definition empty_world : world :=
  World 0 (fun _ => None) (fun _ => None) (fun _ => None) (fun _ => None).

(** API calls.  [o : option nat] is a [*Value] argument (None = nil). *)
Inductive api :=
| ANewVar (s : scalar)                       (* x := s, to pass &x *)
| AVarSet (p : nat) (s : scalar)             (* *p = s, written by the program *)
| AVarGet (p : nat)                          (* *p, read by the program *)
| ANewValue (i : iface)                      (* NewValue(i) *)
| ANewArray                                  (* NewArray() *)
| ANewMap                                    (* NewMap() *)
| AMapSetValue (m : nat) (k : str) (o : option nat)   (* m.SetValue(k, o) *)
| AMapSet (m : nat) (k : str) (i : iface)             (* m.SetT(k, i), T any type; SetNil *)
| AMapSetScalarValue (m : nat) (k : str) (s : scalar) (* m.SetTValue(k, s), T a scalar type *)
| AMapRemoveKey (m : nat) (k : str)
| AMapHasKey (m : nat) (k : str)
| AMapGetValue (m : nat) (k : str)
| AMapGetKeys (m : nat)
| AMapValues (m : nat)                       (* content of m.Values() *)
| AArrAppendValue (a : nat) (o : option nat)
| AArrAppend (a : nat) (i : iface)           (* a.AppendT(i), AppendTValue(i), AppendNil() *)
| AArrSetValueAtIndex (a : nat) (n : Z) (o : option nat)
| AArrRemoveValueAtIndex (a : nat) (n : Z)
| AArrLen (a : nat)
| AArrGetValues (a : nat)
| AValSetObject (v : nat) (i : iface)        (* v.SetT(i) *)
| AValGetObject (v : nat).

(** Results. *)
Inductive out :=
| ODone | OHandle (n : nat) | OValue (o : option nat) | OBool (b : bool)
| OFlag (ok : bool) (err : bool)             (* (bool, error): error present? *)
| OKeys (l : list str) | OElems (l : list (option nat)) | OLen (z : Z) | OObj (i : iface)
| OScalar (s : scalar).

(** Handles used by a call denote objects of the right kind. *)
Definition has {A} (f : nat -> option A) (n : nat) : Prop := exists x, f n = Some x.
Definition ok_value_handle (w : world) (o : option nat) : Prop :=
  match o with None => True | Some v => has (w_val w) v end.
Definition ok_object (w : world) (i : iface) : Prop :=
  match i with
  | IPtr t (Some p) => exists s, w_var w p = Some s /\ stype_of s = t
  | IMap m | IPMap (Some m) => has (w_map w) m
  | IArr a | IPArr (Some a) => has (w_arr w) a
  | IVal v | IPVal (Some v) => has (w_val w) v
  | _ => True
  end.
Definition ok_call (w : world) (c : api) : Prop :=
  match c with
  | ANewVar _ | ANewArray | ANewMap => True
  | AVarSet p s => exists s0, w_var w p = Some s0 /\ stype_of s0 = stype_of s
  | AVarGet p => has (w_var w) p
  | ANewValue i => ok_object w i
  | AMapSetValue m _ o => has (w_map w) m /\ ok_value_handle w o
  | AMapSet m _ i => has (w_map w) m /\ ok_object w i
  | AMapSetScalarValue m _ _ | AMapRemoveKey m _ | AMapHasKey m _ | AMapGetValue m _
  | AMapGetKeys m | AMapValues m => has (w_map w) m
  | AArrAppendValue a o => has (w_arr w) a /\ ok_value_handle w o
  | AArrAppend a i => has (w_arr w) a /\ ok_object w i
  | AArrSetValueAtIndex a _ o => has (w_arr w) a /\ ok_value_handle w o
  | AArrRemoveValueAtIndex a _ | AArrLen a | AArrGetValues a => has (w_arr w) a
  | AValSetObject v i => has (w_val w) v /\ ok_object w i
  | AValGetObject v => has (w_val w) v
  end.

Definition the {A} (d : A) (x : option A) : A := match x with Some a => a | None => d end.

Definition new_val (w : world) (i : iface) : world :=
  World (S (w_next w)) (w_map w) (w_arr w) (put (w_val w) (w_next w) i) (w_var w).
Definition new_var (w : world) (s : scalar) : world :=
  World (S (w_next w)) (w_map w) (w_arr w) (w_val w) (put (w_var w) (w_next w) s).
Definition set_map (w : world) (m : nat) (d : dict (option nat)) : world :=
  World (w_next w) (put (w_map w) m d) (w_arr w) (w_val w) (w_var w).
Definition set_arr (w : world) (a : nat) (l : list (option nat)) : world :=
  World (w_next w) (w_map w) (put (w_arr w) a l) (w_val w) (w_var w).

Definition map_at (w : world) (m : nat) : dict (option nat) := the [] (w_map w m).
Definition arr_at (w : world) (a : nat) : list (option nat) := the [] (w_arr w a).

(** The effect and result of a call. *)
Definition spec_call (c : api) (w : world) : out * world :=
  match c with
  | ANewVar s => (OHandle (w_next w), new_var w s)
  | AVarSet p s =>
      (ODone, World (w_next w) (w_map w) (w_arr w) (w_val w) (put (w_var w) p s))
  | AVarGet p => (OScalar (the (SBool false) (w_var w p)), w)
  | ANewValue i => (OHandle (w_next w), new_val w i)
  | ANewArray => (OHandle (w_next w),
                  World (S (w_next w)) (w_map w) (put (w_arr w) (w_next w) []) (w_val w) (w_var w))
  | ANewMap => (* a map takes two identities: itself and its private value list *)
      (OHandle (S (w_next w)),
       World (S (S (w_next w))) (put (w_map w) (S (w_next w)) []) (w_arr w) (w_val w) (w_var w))
  | AMapSetValue m k o => (ODone, set_map w m (dict_set (map_at w m) k o))
  | AMapSet m k i =>
      (ODone, set_map (new_val w i) m (dict_set (map_at w m) k (Some (w_next w))))
  | AMapSetScalarValue m k s =>
      let w1 := new_var w s in
      let w2 := new_val w1 (IPtr (stype_of s) (Some (w_next w))) in
      (ODone, set_map w2 m (dict_set (map_at w m) k (Some (w_next w1))))
  | AMapRemoveKey m k =>
      if dict_has (map_at w m) k
      then (OFlag true false, set_map w m (dict_remove (map_at w m) k))
      else (OFlag false true, w)
  | AMapHasKey m k => (OBool (dict_has (map_at w m) k), w)
  | AMapGetValue m k => (OValue (the None (dict_get (map_at w m) k)), w)
  | AMapGetKeys m => (OKeys (dict_keys (map_at w m)), w)
  | AMapValues m => (OElems (dict_values (map_at w m)), w)
  | AArrAppendValue a o => (ODone, set_arr w a (arr_at w a ++ [o]))
  | AArrAppend a i => (ODone, set_arr (new_val w i) a (arr_at w a ++ [Some (w_next w)]))
  | AArrSetValueAtIndex a n o =>
      if valid_index (arr_at w a) n
      then (OFlag true false, set_arr w a (list_set (arr_at w a) (Z.to_nat n) o))
      else (OFlag false true, w)
  | AArrRemoveValueAtIndex a n =>
      if valid_index (arr_at w a) n
      then (OFlag true false, set_arr w a (list_remove (arr_at w a) (Z.to_nat n)))
      else (OFlag false true, w)
  | AArrLen a => (OLen (Z.of_nat (length (arr_at w a))), w)
  | AArrGetValues a => (OElems (arr_at w a), w)
  | AValSetObject v i =>
      (ODone, World (w_next w) (w_map w) (w_arr w) (put (w_val w) v i) (w_var w))
  | AValGetObject v => (OObj (the INil (w_val w v)), w)
  end.

(** A history of calls, its results and the final world. *)
Fixpoint spec_calls (cs : list api) (w : world) : list out * world :=
  match cs with
  | [] => ([], w)
  | c :: t => let (o, w1) := spec_call c w in
              let (os, w2) := spec_calls t w1 in (o :: os, w2)
  end.

(** Every call of the history uses handles that denote objects when it is made. *)
Fixpoint ok_calls (cs : list api) (w : world) : Prop :=
  match cs with
  | [] => True
  | c :: t => ok_call w c /\ ok_calls t (snd (spec_call c w))
  end.

(** ** What a map holds under a key *)

(** The object held by the value stored under [k]; [None] when the key is missing
    or a nil [*Value] is stored. *)
Definition object_at (w : world) (m : nat) (k : str) : option iface :=
  match dict_get (map_at w m) k with Some (Some v) => w_val w v | _ => None end.

(** The scalar an object denotes: a scalar, or a pointer to one. *)
Definition scalar_of (w : world) (i : iface) : option scalar :=
  match i with
  | IScal s => Some s
  | IPtr _ (Some p) => w_var w p
  | _ => None
  end.

Definition scalar_at (w : world) (m : nat) (k : str) : option scalar :=
  match object_at w m k with Some i => scalar_of w i | None => None end.

(** nil, or a nil pointer. *)
Definition nil_object (i : iface) : bool :=
  match i with
  | INil | IPtr _ None | IPMap None | IPArr None | IPVal None => true
  | IPErrs None | IPStrs None | IPErr None | IPFunc None => true
  | ITime None | IOther _ None => true
  | _ => false
  end.

(** Missing key, nil [*Value], nil object or nil pointer. *)
Definition absent (w : world) (m : nat) (k : str) : bool :=
  match object_at w m k with Some i => nil_object i | None => true end.

(** ** Kinds of objects a JSON document is made of *)
Inductive category := CatStr | CatBool | CatInt | CatFlt | CatMap | CatArr.
Definition cat_of (w : world) (i : iface) : option category :=
  match i with
  | IMap _ | IPMap (Some _) => Some CatMap
  | IArr _ | IPArr (Some _) => Some CatArr
  | _ => match scalar_of w i with
         | Some (SStr _) => Some CatStr
         | Some (SBool _) => Some CatBool
         | Some (SInt _ _) => Some CatInt
         | Some (SFlt _ _) => Some CatFlt
         | None => None
         end
  end.

(** A Value held by a Value. *)
Definition nested (i : iface) : Prop := exists v, i = IVal v \/ i = IPVal (Some v).

(** A Value that holds a pointer to a nil error. *)
Definition holds_no_error (w : world) (i : iface) : Prop :=
  exists v, (i = IVal v \/ i = IPVal (Some v)) /\ w_val w v = Some (IPErr (Some NoError)).

(** ** Elements of Go maps and slices handed to the constructors

    A Value is kept by reference; anything else is put in a Value created by the
    constructor ([w0] is the world before the call, [w] after it).  For a nil
    [*Value] either may happen. *)
Definition fresh_value (w0 w : world) (o : option nat) (i : iface) : Prop :=
  exists v, o = Some v /\ w_next w0 <= v /\ w_val w v = Some i.
Definition holds (w0 w : world) (o : option nat) (i : iface) : Prop :=
  match i with
  | IVal v | IPVal (Some v) => o = Some v
  | IPVal None => o = None \/ fresh_value w0 w o i
  | _ => fresh_value w0 w o i
  end.

(** ** Calls that change what is stored under key [k] of map [m], where [v] is
    the Value stored there. *)
Definition touches (m : nat) (k : str) (v : nat) (c : api) : Prop :=
  match c with
  | AMapSetValue m' k' _ | AMapSet m' k' _ | AMapSetScalarValue m' k' _ | AMapRemoveKey m' k' =>
      m' = m /\ k' = k
  | AValSetObject v' _ => v' = v
  | _ => False
  end.
