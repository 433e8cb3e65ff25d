(** * Several goroutines calling methods of one map (/repo/json/Map.go)

    The methods of a map as sequences of accesses to the variables that all its callers
    share.  Unlike ConcModel.v this covers removing and reading, and any number of calls by
    each goroutine. *)
From Coq Require Import Ascii String List NArith ZArith Bool.
From Verif Require Import GoStr Heap ArrayModel MapModel SpecDict ConcModel.
Import ListNotations.

(** [internal_map], [internal_keys] and the slice in [internal_keys_obj], Map.go:172-174. *)
Inductive var := VTable | VKeys | VVals.

(** What a goroutine still has to do.  A write of the table is one assignment or delete of
    the Go map; a write of the values is a new slice or an assignment to one element.  (The
    backing array of a slice counts as part of it; KeysSlice.v has it apart.) *)
Inductive act (A : Type) :=
| Ret (r : A)
| Crash                                                   (* a run-time panic *)
| ReadTable (f : list (str * option loc) -> act A)
| ReadKeys (f : list str -> act A)
| ReadVals (f : list (option loc) -> act A)
| WriteTable (g : list (str * option loc) -> list (str * option loc)) (a : act A)
| WriteKeys (l : list str) (a : act A)
| WriteVals (g : list (option loc) -> list (option loc)) (a : act A).
Arguments Ret {A}. Arguments Crash {A}. Arguments ReadTable {A}. Arguments ReadKeys {A}. Arguments ReadVals {A}.
Arguments WriteTable {A}. Arguments WriteKeys {A}. Arguments WriteVals {A}.

(** Afterwards something else. *)
Fixpoint andthen {A B} (a : act A) (f : A -> act B) : act B :=
  match a with
  | Ret r => f r
  | Crash => Crash
  | ReadTable g => ReadTable (fun x => andthen (g x) f)
  | ReadKeys g => ReadKeys (fun x => andthen (g x) f)
  | ReadVals g => ReadVals (fun x => andthen (g x) f)
  | WriteTable g a => WriteTable g (andthen a f)
  | WriteKeys l a => WriteKeys l (andthen a f)
  | WriteVals g a => WriteVals g (andthen a f)
  end.

(** The next access: the variable, and whether it is written. *)
Definition access {A} (a : act A) : option (var * bool) :=
  match a with
  | Ret _ | Crash => None
  | ReadTable _ => Some (VTable, false) | ReadKeys _ => Some (VKeys, false) | ReadVals _ => Some (VVals, false)
  | WriteTable _ _ => Some (VTable, true) | WriteKeys _ _ => Some (VKeys, true) | WriteVals _ _ => Some (VVals, true)
  end.
Definition step {A} (a : act A) (s : shared) : act A * shared :=
  match a with
  | Ret _ | Crash => (a, s)
  | ReadTable f => (f (c_tbl s), s)
  | ReadKeys f => (f (c_keys s), s)
  | ReadVals f => (f (c_vals s), s)
  | WriteTable g a => (a, Shared (g (c_tbl s)) (c_keys s) (c_vals s))
  | WriteKeys l a => (a, Shared (c_tbl s) l (c_vals s))
  | WriteVals g a => (a, Shared (c_tbl s) (c_keys s) (g (c_vals s)))
  end.

(** ** The methods *)

Definition found (t : list (str * option loc)) (k : str) : bool := match tbl_get t k with Some _ => true | None => false end.

(** HasKey, Map.go:200-203,851-853. *)
Definition has_op (k : str) : act bool := ReadTable (fun t => Ret (found t k)).

(** getInternalValue, Map.go:249-254. *)
Definition get_op (k : str) : act (option loc) :=
  ReadTable (fun t => if found t k then ReadTable (fun t => Ret (match tbl_get t k with Some o => o | None => None end)) else Ret None).

(** GetKeys, Map.go:196-198,575-577. *)
Definition keys_op : act (list str) := ReadKeys (fun l => Ret l).

(** The elements of Values(), Map.go:1102-1104, Array.go:420-422. *)
Definition vals_op : act (list (option loc)) := ReadVals (fun l => Ret l).

(** The loop of ToJSONString over the keys, Map.go:311-349: the keys with their values.  (The
    elements of the slice of keys are read at once; the values are written afterwards.) *)
Fixpoint entries_loop (l : list str) (acc : list (str * option loc)) : act (list (str * option loc)) :=
  match l with
  | [] => Ret acc
  | k :: l => ReadTable (fun t => entries_loop l (acc ++ [(k, match tbl_get t k with Some o => o | None => None end)]))
  end.
Definition entries_op : act (list (str * option loc)) := ReadKeys (fun l => entries_loop l []).

(** setInternalValue, Map.go:239-247, with AppendValue, Array.go:412-415, and
    SetValueAtIndex, Array.go:188-199. *)
Definition set_table (k : str) (v : option loc) : act unit := WriteTable (fun t => tbl_put t k v) (Ret tt).
Definition set_new (k : str) (v : option loc) : act unit :=
  ReadKeys (fun l => WriteKeys (l ++ [k]) (ReadVals (fun vs => WriteVals (fun _ => vs ++ [v]) (set_table k v)))).
Definition set_old (k : str) (v : option loc) : act unit :=
  ReadKeys (fun l =>
    match find_index k l with
    | None => set_table k v
    | Some i => ReadVals (fun vs => if Nat.ltb i (length vs)
                                    then ReadVals (fun vs => if Nat.ltb i (length vs) then WriteVals (fun vs => upd vs i v) (set_table k v) else Crash)
                                    else set_table k v)
    end).
Definition set_op (k : str) (v : option loc) : act unit :=
  ReadTable (fun t =>
    if found t k then ReadKeys (fun l => match l with [] => set_new k v | _ => set_old k v end)
    else set_new k v).

(** RemoveKey and removeKey, Map.go:854-862,185-194, with RemoveValueAtIndex,
    Array.go:200-211.  Slicing beyond the length of a slice panics, as does an assignment to
    an element beyond it in SetValueAtIndex. *)
Definition remove_val (i : nat) : act (bool * option err) :=
  ReadVals (fun vs => if Nat.ltb i (length vs)
                      then ReadVals (fun vs => if Nat.ltb i (length vs) then WriteVals (fun _ => remove_nth i vs) (Ret (true, None)) else Crash)
                      else Ret (true, None)).
Definition remove_op (k : str) : act (bool * option err) :=
  ReadTable (fun t =>
    if found t k then
      WriteTable (fun t => tbl_del t k) (ReadKeys (fun l =>
        match find_index k l with
        | None => Ret (true, Some EKeyArr)
        | Some i => ReadKeys (fun l => if Nat.ltb i (length l) then WriteKeys (remove_nth i l) (remove_val i) else Crash)
        end))
    else Ret (false, Some EKeyMap)).

(** ** Goroutines *)

(** Each next access is made by the goroutine the schedule names. *)
Section Run.
  Context {A : Type}.
  Definition turn_of (n : nat) (st : list (act A) * shared) : list (act A) * shared :=
    match nth_error (fst st) n with
    | None => st
    | Some a => let (a', s') := step a (snd st) in (upd (fst st) n a', s')
    end.
  Definition schedule (ns : list nat) (st : list (act A) * shared) : list (act A) * shared :=
    fold_left (fun st n => turn_of n st) ns st.

  (** One goroutine alone, for [n] accesses. *)
  Fixpoint solo_run (n : nat) (a : act A) (s : shared) : act A * shared :=
    match n with O => (a, s) | S n => let (a', s') := step a s in solo_run n a' s' end.
End Run.

(** The calls by name. *)
Inductive call := CSet (k : str) (v : option loc) | CRemove (k : str) | CHas (k : str) | CGet (k : str) | CKeys | CVals | CEntries.
Inductive answer_of_call :=
| RUnit | RRemoved (r : bool * option err) | RBool (b : bool) | RValue (o : option loc)
| RKeys (l : list str) | RVals (l : list (option loc)) | REntries (l : list (str * option loc)).
Definition done {A} (mk : A -> answer_of_call) (a : act A) : act answer_of_call := andthen a (fun r => Ret (mk r)).
Definition do_call (c : call) : act answer_of_call :=
  match c with
  | CSet k v => done (fun _ => RUnit) (set_op k v)
  | CRemove k => done RRemoved (remove_op k)
  | CHas k => done RBool (has_op k)
  | CGet k => done RValue (get_op k)
  | CKeys => done RKeys keys_op
  | CVals => done RVals vals_op
  | CEntries => done REntries entries_op
  end.

(** A goroutine that makes calls, each chosen by the earlier answers. *)
Inductive worker := Stop | Calls (c : call) (next : answer_of_call -> worker).
Fixpoint work (w : worker) : act (list answer_of_call) :=
  match w with
  | Stop => Ret []
  | Calls c next => andthen (do_call c) (fun r => andthen (work (next r)) (fun rs => Ret (r :: rs)))
  end.
