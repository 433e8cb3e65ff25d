(** * Several goroutines calling methods of one array (/repo/json/Array.go)

    The methods of an array as sequences of accesses to the variables that all its callers
    share: the slice header [values] of Array.go:93-95 and the elements of its backing arrays.
    AccessModel.v does this for maps, with a slice and its elements as one variable. *)
From Coq Require Import Ascii String List NArith ZArith Bool.
From Verif Require Import GoStr Heap ArrayModel KeysSlice.
Import ListNotations.

(** The header, and element [i] of the backing array [b]. *)
Inductive var := VHead | VCell (b i : nat).
Record store := Store { st_head : slice; st_cell : nat -> nat -> option loc }.
Definition put_cell (f : nat -> nat -> option loc) (b i : nat) (o : option loc) : nat -> nat -> option loc :=
  fun b' i' => if Nat.eqb b' b && Nat.eqb i' i then o else f b' i'.

(** What a goroutine still has to do. *)
Inductive act (A : Type) :=
| Ret (r : A)
| Crash                                                   (* a run-time panic *)
| ReadHead (f : slice -> act A)
| ReadCell (b i : nat) (f : option loc -> act A)
| WriteHead (s : slice) (a : act A)
| WriteCell (b i : nat) (o : option loc) (a : act A).
Arguments Ret {A}. Arguments Crash {A}. Arguments ReadHead {A}. Arguments ReadCell {A}. Arguments WriteHead {A}. Arguments WriteCell {A}.

Fixpoint andthen {A B} (a : act A) (f : A -> act B) : act B :=
  match a with
  | Ret r => f r
  | Crash => Crash
  | ReadHead g => ReadHead (fun x => andthen (g x) f)
  | ReadCell b i g => ReadCell b i (fun x => andthen (g x) f)
  | WriteHead s a => WriteHead s (andthen a f)
  | WriteCell b i o a => WriteCell b i o (andthen a f)
  end.

(** The next access: the variable, and whether it is written. *)
Definition access {A} (a : act A) : option (var * bool) :=
  match a with
  | Ret _ | Crash => None
  | ReadHead _ => Some (VHead, false) | ReadCell b i _ => Some (VCell b i, false)
  | WriteHead _ _ => Some (VHead, true) | WriteCell b i _ _ => Some (VCell b i, true)
  end.
Definition step {A} (a : act A) (s : store) : act A * store :=
  match a with
  | Ret _ | Crash => (a, s)
  | ReadHead f => (f (st_head s), s)
  | ReadCell b i f => (f (st_cell s b i), s)
  | WriteHead x a => (a, Store x (st_cell s))
  | WriteCell b i o a => (a, Store (st_head s) (put_cell (st_cell s) b i o))
  end.

(** ** The methods *)

(** Elements [i], [i+1], ... of a backing array, [n] of them. *)
Fixpoint read_cells {A} (b i n : nat) (acc : list (option loc)) (f : list (option loc) -> act A) : act A :=
  match n with
  | O => f acc
  | S n => ReadCell b i (fun o => read_cells b (S i) n (acc ++ [o]) f)
  end.
Fixpoint write_cells {A} (b i : nat) (l : list (option loc)) (a : act A) : act A :=
  match l with
  | [] => a
  | o :: l => WriteCell b i o (write_cells b (S i) l a)
  end.

(** The choice of the allocator: the number of a new backing array, and its capacity if that is
    more than needed. *)
Record room := Room { r_base : nat; r_cap : nat }.

(** [values = append(s, l...)], for the part of a slice that ends at [s].  (The elements of [l]
    have been read.) *)
Definition append_to (s : slice) (l : list (option loc)) (r : room) {A} (a : act A) : act A :=
  let n := s_len s + length l in
  if Nat.leb n (s_cap s) then write_cells (s_base s) (s_len s) l (WriteHead (Slice (s_base s) n (s_cap s)) a)
  else read_cells (s_base s) 0 (s_len s) [] (fun old =>
         write_cells (r_base r) 0 (old ++ l) (WriteHead (Slice (r_base r) n (Nat.max n (r_cap r))) a)).

(** Len, Array.go:117-119,185-187. *)
Definition len_op : act nat := ReadHead (fun s => Ret (s_len s)).

(** The header itself: [*a.GetValues()], Array.go:113-115,420-422. *)
Definition copy_op : act slice := ReadHead (fun s => Ret s).

(** The checks of an index, Array.go:189-195 and others; the header is read again afterwards. *)
Definition checked {A} (n : Z) (bad : err -> act A) (go : act A) : act A :=
  if (n <? 0)%Z then bad EIndexNeg
  else ReadHead (fun s => if (Z.of_nat (s_len s) - 1 <? n)%Z then bad EIndexRange else go).

(** SetValueAtIndex, Array.go:188-199. *)
Definition set_op (n : Z) (o : option loc) : act (option err) :=
  checked n (fun e => Ret (Some e))
    (ReadHead (fun s => if Nat.ltb (Z.to_nat n) (s_len s) then WriteCell (s_base s) (Z.to_nat n) o (Ret None) else Crash)).

(** The element that GetStringValue(index) and GetMap(index) go on with, Array.go:426-478. *)
Definition elem_op (n : Z) : act (err + option loc) :=
  checked n (fun e => Ret (inl e))
    (ReadHead (fun s => if Nat.ltb (Z.to_nat n) (s_len s) then ReadCell (s_base s) (Z.to_nat n) (fun o => Ret (inr o)) else Crash)).

(** The elements that the loops of Clone and the GetArrayOfT methods go over, Array.go:121-180,479-1296. *)
Definition all_op : act (list (option loc)) := ReadHead (fun s => read_cells (s_base s) 0 (s_len s) [] Ret).

(** The elements that ToJSONString writes, Array.go:212-246: the length is looked at first. *)
Definition text_op : act (list (option loc)) :=
  ReadHead (fun s => match s_len s with O => Ret [] | _ => all_op end).

(** AppendValue, and the AppendT methods after they have made their Value, Array.go:247-419. *)
Definition append_op (o : option loc) (r : room) : act unit :=
  ReadHead (fun s => append_to s [o] r (Ret tt)).

(** RemoveValueAtIndex, Array.go:200-211: [append(values[:n], values[n+1:]...)].  (The elements
    that move are read before the first of them is written.) *)
Definition remove_op (n : Z) (r : room) : act (option err) :=
  checked n (fun e => Ret (Some e))
    (ReadHead (fun s => if Nat.leb (Z.to_nat n) (s_cap s) then
      ReadHead (fun t => if Nat.ltb (Z.to_nat n) (s_len t) then
        read_cells (s_base t) (S (Z.to_nat n)) (s_len t - S (Z.to_nat n)) [] (fun l =>
          append_to (Slice (s_base s) (Z.to_nat n) (s_cap s)) l r (Ret None)) else Crash) else Crash)).

(** A loop of the program itself over a copy of the header made earlier. *)
Definition kept_op (s : slice) : act (list (option loc)) := read_cells (s_base s) 0 (s_len s) [] Ret.

(** ** Goroutines *)
Section Run.
  Context {A : Type}.
  (** Each next access is made by the goroutine the schedule names. *)
  Definition turn_of (n : nat) (st : list (act A) * store) : list (act A) * store :=
    match nth_error (fst st) n with
    | None => st
    | Some a => let (a', s') := step a (snd st) in (upd (fst st) n a', s')
    end.
  Definition schedule (ns : list nat) (st : list (act A) * store) : list (act A) * store :=
    fold_left (fun st n => turn_of n st) ns st.
  (** One goroutine alone, for [n] accesses. *)
  Fixpoint solo_run (n : nat) (a : act A) (s : store) : act A * store :=
    match n with O => (a, s) | S n => let (a', s') := step a s in solo_run n a' s' end.
End Run.

(** The calls by name. *)
Inductive call :=
| CLen | CCopy | CSet (n : Z) (o : option loc) | CElem (n : Z) | CAll | CText
| CAppend (o : option loc) (r : room) | CRemove (n : Z) (r : room) | CKept (s : slice).
Inductive reply :=
| RLen (n : nat) | RSlice (s : slice) | RDone | RErr (e : option err) | RElem (x : err + option loc) | RElems (l : list (option loc)).
Definition do_call (c : call) : act reply :=
  match c with
  | CLen => andthen len_op (fun n => Ret (RLen n))
  | CCopy => andthen copy_op (fun s => Ret (RSlice s))
  | CSet n o => andthen (set_op n o) (fun e => Ret (RErr e))
  | CElem n => andthen (elem_op n) (fun x => Ret (RElem x))
  | CAll => andthen all_op (fun l => Ret (RElems l))
  | CText => andthen text_op (fun l => Ret (RElems l))
  | CAppend o r => andthen (append_op o r) (fun _ => Ret RDone)
  | CRemove n r => andthen (remove_op n r) (fun e => Ret (RErr e))
  | CKept s => andthen (kept_op s) (fun l => Ret (RElems l))
  end.

(** A goroutine that makes calls, each chosen by the earlier answers. *)
Inductive worker := Stop | Calls (c : call) (next : reply -> worker).
Fixpoint work (w : worker) : act (list reply) :=
  match w with
  | Stop => Ret []
  | Calls c next => andthen (do_call c) (fun r => andthen (work (next r)) (fun rs => Ret (r :: rs)))
  end.
