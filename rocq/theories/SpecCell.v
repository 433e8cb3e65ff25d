(** * Specification: calls on one array at the same time *)
From Coq Require Import Ascii String List NArith ZArith Bool.
From Verif Require Import GoStr Heap ArrayModel KeysSlice CellModel.
Import ListNotations.

(** Two accesses that must not happen at the same time: to one variable, and one writes. *)
Definition var_eqb (x y : var) : bool :=
  match x, y with
  | VHead, VHead => true
  | VCell b i, VCell c j => Nat.eqb b c && Nat.eqb i j
  | _, _ => false
  end.
Definition conflicting (x y : var * bool) : bool := var_eqb (fst x) (fst y) && (snd x || snd y).

(** Two goroutines are about to make such accesses: a data race. *)
Definition racing {A} (ts : list (act A)) : Prop :=
  exists i j a b x y, i <> j /\ nth_error ts i = Some a /\ nth_error ts j = Some b
    /\ access a = Some x /\ access b = Some y /\ conflicting x y = true.

(** Each makes such an access when it runs alone. *)
Definition clash {A} (a b : act A) (s : store) : Prop :=
  exists i j x y, access (fst (solo_run i a s)) = Some x /\ access (fst (solo_run j b s)) = Some y /\ conflicting x y = true.

Definition over {A} (a : act A) : Prop := exists r, a = Ret r.

(** The elements of a slice, and the array. *)
Definition cells (s : store) (x : slice) : list (option loc) := map (st_cell s (s_base x)) (seq 0 (s_len x)).
Definition holds (s : store) (l : list (option loc)) : Prop :=
  cells s (st_head s) = l /\ s_len (st_head s) <= s_cap (st_head s).

Definition within (n : Z) (len : nat) : bool := (0 <=? n)%Z && (n <? Z.of_nat len)%Z.
(** Elements [i] to [i+n-1]. *)
Definition span (b i n : nat) : list var := map (VCell b) (seq i n).

(** What the calls read and write when the header is [x]. *)
Definition writes (x : slice) (c : call) : list var :=
  match c with
  | CSet n _ => if within n (s_len x) then [VCell (s_base x) (Z.to_nat n)] else []
  | CAppend _ r => VHead :: if Nat.ltb (s_len x) (s_cap x) then [VCell (s_base x) (s_len x)] else span (r_base r) 0 (S (s_len x))
  | CRemove n _ => if within n (s_len x) then VHead :: span (s_base x) (Z.to_nat n) (s_len x - S (Z.to_nat n)) else []
  | _ => []
  end.
Definition reads (x : slice) (c : call) : list var :=
  match c with
  | CLen | CCopy => [VHead]
  | CSet n _ => if (n <? 0)%Z then [] else [VHead]
  | CElem n => if (n <? 0)%Z then [] else VHead :: if within n (s_len x) then [VCell (s_base x) (Z.to_nat n)] else []
  | CAll | CText => VHead :: span (s_base x) 0 (s_len x)
  | CAppend _ r => VHead :: if Nat.ltb (s_len x) (s_cap x) then [] else span (s_base x) 0 (s_len x)
  | CRemove n _ => if (n <? 0)%Z then []
                   else VHead :: if within n (s_len x) then span (s_base x) (S (Z.to_nat n)) (s_len x - S (Z.to_nat n)) else []
  | CKept y => span (s_base y) 0 (s_len y)
  end.
Definition meet (l m : list var) : bool := existsb (fun x => existsb (var_eqb x) m) l.
Definition disturb (x : slice) (c c' : call) : bool :=
  meet (writes x c) (writes x c' ++ reads x c') || meet (writes x c') (reads x c).

(** What they do and answer. *)
Definition after (l : list (option loc)) (c : call) : list (option loc) :=
  match c with
  | CSet n o => if within n (length l) then upd l (Z.to_nat n) o else l
  | CAppend o _ => l ++ [o]
  | CRemove n _ => if within n (length l) then remove_nth (Z.to_nat n) l else l
  | _ => l
  end.
Definition index_error (n : Z) (len : nat) : option err :=
  if (n <? 0)%Z then Some EIndexNeg else if within n len then None else Some EIndexRange.
Definition reply_to (s : store) (l : list (option loc)) (c : call) : reply :=
  match c with
  | CLen => RLen (length l)
  | CCopy => RSlice (st_head s)
  | CSet n _ | CRemove n _ => RErr (index_error n (length l))
  | CElem n => RElem (match index_error n (length l) with Some e => inl e | None => inr (nth (Z.to_nat n) l None) end)
  | CAll | CText => RElems l
  | CAppend _ _ => RDone
  | CKept y => RElems (cells s y)
  end.

(** The call in the model of one goroutine; nothing there keeps headers. *)
Definition call_alone (a : loc) (c : call) (h : heap) : option (res (reply * heap)) :=
  match c with
  | CLen => Some (n <-r arr_Len h a ;; Ok (RLen (Z.to_nat n), h))
  | CSet n o => Some (q <-r arr_SetValueAtIndex a n o h ;; Ok (RErr (fst q), snd q))
  | CElem n => Some (match arr_elem h a n (fun v => Ok (GVal v)) with
                     | Ok (GVal v) => Ok (RElem (inr (Some v)), h)
                     | Ok (GErr (e :: _)) => Ok (RElem (inl e), h)
                     | Panic => Ok (RElem (inr None), h)    (* a method of a nil Value *)
                     | _ => Stuck
                     end)
  | CAll | CText => Some (l <-r arr_GetValues h a ;; Ok (RElems l, h))
  | CAppend o _ => Some (q <-r arr_AppendValue a o h ;; Ok (RDone, snd q))
  | CRemove n _ => Some (q <-r arr_RemoveValueAtIndex a n h ;; Ok (RErr (fst q), snd q))
  | CCopy | CKept _ => None
  end.

(** A goroutine that only uses elements of its own, [mine], and the length. *)
Fixpoint keeps_to (mine : nat -> bool) (w : worker) : Prop :=
  match w with
  | Stop => True
  | Calls c next =>
      match c with
      | CLen => True
      | CSet n _ | CElem n => (0 <= n)%Z -> mine (Z.to_nat n) = true
      | _ => False
      end /\ forall r, keeps_to mine (next r)
  end.
(** What it leaves and hears alone. *)
Fixpoint leaves (s : store) (w : worker) (l : list (option loc)) : list (option loc) :=
  match w with
  | Stop => l
  | Calls c next => leaves s (next (reply_to s l c)) (after l c)
  end.
Fixpoint hears (s : store) (w : worker) (l : list (option loc)) : list reply :=
  match w with
  | Stop => []
  | Calls c next => reply_to s l c :: hears s (next (reply_to s l c)) (after l c)
  end.
