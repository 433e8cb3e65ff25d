(** * Specification: calls on one map at the same time *)
From Coq Require Import Ascii String List NArith ZArith Bool.
From Verif Require Import GoStr Heap ArrayModel MapModel SpecDict ConcModel AccessModel.
Import ListNotations.

(** Two accesses that must not happen at the same time: to one variable, and one writes. *)
Definition var_eqb (x y : var) : bool :=
  match x, y with VTable, VTable | VKeys, VKeys | VVals, VVals => true | _, _ => false end.
Definition conflicting (x y : var * bool) : bool := var_eqb (fst x) (fst y) && (snd x || snd y).

(** Two goroutines are about to make such accesses: a data race. *)
Definition racing {A} (ts : list (act A)) : Prop :=
  exists i j a b x y, i <> j /\ nth_error ts i = Some a /\ nth_error ts j = Some b
    /\ access a = Some x /\ access b = Some y /\ conflicting x y = true.

(** Each makes such an access when it runs alone. *)
Definition clash {A} (a b : act A) (s : shared) : Prop :=
  exists i j x y, access (fst (solo_run i a s)) = Some x /\ access (fst (solo_run j b s)) = Some y /\ conflicting x y = true.

Definition over {A} (a : act A) : Prop := exists r, a = Ret r.

(** What the calls read and write, for a map with the content [d]. *)
Definition writes (d : dict (option loc)) (c : call) : list var :=
  match c with
  | CSet k _ => if dict_has d k then [VTable; VVals] else [VTable; VKeys; VVals]
  | CRemove k => if dict_has d k then [VTable; VKeys; VVals] else []
  | _ => []
  end.
Definition reads (d : dict (option loc)) (c : call) : list var :=
  match c with
  | CSet _ _ => [VTable; VKeys; VVals]
  | CRemove k => if dict_has d k then [VTable; VKeys; VVals] else [VTable]
  | CHas _ | CGet _ => [VTable]
  | CKeys => [VKeys]
  | CVals => [VVals]
  | CEntries => match d with [] => [VKeys] | _ => [VTable; VKeys] end
  end.
Definition meet (l m : list var) : bool := existsb (fun x => existsb (var_eqb x) m) l.
Definition disturb (d : dict (option loc)) (c c' : call) : bool :=
  meet (writes d c) (writes d c' ++ reads d c') || meet (writes d c') (reads d c).

(** What they do and answer. *)
Definition after (d : dict (option loc)) (c : call) : dict (option loc) :=
  match c with CSet k v => dict_set d k v | CRemove k => dict_remove d k | _ => d end.
Definition reply_to (d : dict (option loc)) (c : call) : answer_of_call :=
  match c with
  | CSet _ _ => RUnit
  | CRemove k => RRemoved (if dict_has d k then (true, None) else (false, Some EKeyMap))
  | CHas k => RBool (dict_has d k)
  | CGet k => RValue (match dict_get d k with Some o => o | None => None end)
  | CKeys => RKeys (dict_keys d)
  | CVals => RVals (dict_values d)
  | CEntries => REntries d
  end.

(** The answers of calls that leave the map alone, one after the other. *)
Fixpoint hears (d : dict (option loc)) (w : worker) : list answer_of_call :=
  match w with
  | Stop => []
  | Calls c next => reply_to d c :: hears d (next (reply_to d c))
  end.
(** Every call of the goroutine leaves a map with the content [d] alone. *)
Fixpoint only_reads (d : dict (option loc)) (w : worker) : Prop :=
  match w with
  | Stop => True
  | Calls c next => writes d c = [] /\ only_reads d (next (reply_to d c))
  end.

(** The call in the model of one goroutine. *)
Definition entry_of (h : heap) (m : loc) (k : str) : res (str * option loc) :=
  o <-r map_GetValue h m k ;; Ok (k, o).
Fixpoint entries_of (h : heap) (m : loc) (l : list str) : res (list (str * option loc)) :=
  match l with
  | [] => Ok []
  | k :: l => e <-r entry_of h m k ;; es <-r entries_of h m l ;; Ok (e :: es)
  end.
Definition call_alone (m : loc) (c : call) (h : heap) : res (answer_of_call * heap) :=
  match c with
  | CSet k v => q <-r map_SetValue m k v h ;; Ok (RUnit, snd q)
  | CRemove k => q <-r map_RemoveKey m k h ;; Ok (RRemoved (fst q), snd q)
  | CHas k => b <-r map_HasKey h m k ;; Ok (RBool b, h)
  | CGet k => o <-r map_GetValue h m k ;; Ok (RValue o, h)
  | CKeys => l <-r map_GetKeys h m ;; Ok (RKeys l, h)
  | CVals => vs <-r map_Values h m ;; l <-r arr_GetValues h vs ;; Ok (RVals l, h)
  | CEntries => l <-r map_GetKeys h m ;; es <-r entries_of h m l ;; Ok (REntries es, h)
  end.
