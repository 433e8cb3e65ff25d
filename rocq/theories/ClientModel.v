(** * Programs that use the library

    A program knows the objects whose handles it has got and calls methods on them.  It
    sees everything the methods return, and whether two handles are the same. *)
From Coq Require Import Ascii String List NArith ZArith Bool.
From Verif Require Import GoStr GoNum GoFloat Heap Common ValueModel ArrayModel MapModel JsonModel ParserModel
  GetterModel NamedModel PtrModel PtrListModel RunesModel TimeModel SpecDict SpecWorld World SpecAlike.
Import ListNotations.

(** GetArrayOfTValue of Array and Map (Array.go:695-910,938-964,992-1018,1046-1075,1103-1131). *)
Inductive lgetter := LInt (k : ikind) | LFloat32 | LFloat64 | LBool | LString.
Inductive lanswer :=
| LAInt (r : gres (list Z)) | LAFlt (r : gres (list flt)) | LABool (r : gres (list bool)) | LAStr (r : gres (list str)).
Definition run_lgetter (g : lgetter) (X : ext) (h : heap) (a : loc) : res lanswer :=
  match g with
  | LInt k => rmap LAInt (arr_GetArrayOfIntKindValue k X h a)
  | LFloat32 => rmap LAFlt (arr_GetArrayOfFloat32Value X h a)
  | LFloat64 => rmap LAFlt (arr_GetArrayOfFloat64Value X h a)
  | LBool => rmap LABool (arr_GetArrayOfBoolValue X h a)
  | LString => rmap LAStr (arr_GetArrayOfStringValue X h a)
  end.

(** GetArrayOfFloat32Value, GetArrayOfFloat64Value and GetArrayOfBoolValue of Map
    (Map.go:699-705,715-721,740-748). *)
Inductive mgetter := MFloat32 | MFloat64 | MBool.
Inductive manswer := MAFlt (r : gres (list flt)) | MABool (r : gres (option (list bool))).
Definition run_mgetter (g : mgetter) (X : ext) (h : heap) (m : loc) (k : str) : res manswer :=
  match g with
  | MFloat32 => rmap MAFlt (map_array_of_value (arr_GetArrayOfFloat32Value X) X h m k)
  | MFloat64 => rmap MAFlt (map_array_of_value (arr_GetArrayOfFloat64Value X) X h m k)
  | MBool => rmap MABool (map_array_of (arr_GetArrayOfBoolValue X) X h m k)
  end.

(** The calls.  A number stands for a handle. *)
Inductive request :=
| QApi (c : api)                                   (* the calls of SpecWorld *)
| QMap (g : getter) (m : nat) (k : str)            (* getters and predicates of Map, GetterModel.v *)
| QVal (g : vgetter) (v : nat)                     (* those of Value, NamedModel.v *)
| QMapPtr (t : stype) (m : nat) (k : str)          (* the pointers GetString, GetInt8, ... return *)
| QValPtr (t : stype) (v : nat)
| QArrPtrs (t : stype) (a : nat)                   (* the pointers in the lists of GetArrayOfT *)
| QMapPtrs (t : stype) (m : nat) (k : str)
| QArrVals (g : lgetter) (a : nat)                 (* the lists of GetArrayOfTValue *)
| QMapVals (g : mgetter) (m : nat) (k : str)       (* those of Map *)
| QValRunes (v : nat) | QMapRunes (m : nat) (k : str)  (* GetRunes *)
| QElemStr (a : nat) (n : Z) | QElemMap (a : nat) (n : Z)  (* a.GetStringValue(n), a.GetMap(n) *)
| QEqual (v : nat) (s : option str)                (* IsValueEqualToString(Value) *)
| QMapIsNil (m : nat)
| QValues (m : nat)                                (* m.Values(): the live list *)
| QToString (i : iface)                            (* ConvertInterfaceValueToStringValue(i) *)
| QMapText (fuel : nat) (m : nat) (b : option str) (* m.ToJSONString(b) *)
| QArrText (fuel : nat) (a : nat) (b : option str)
| QText (fuel : nat) (i : iface)                   (* ConvertInterfaceValueToJSONStringValue(i) *)
| QClone (fuel : nat) (k : ckind) (l : nat)        (* Clone() *)
| QParse (s : str)                                 (* Parse(s) *)
| QArrayOf (l : option (list iface))               (* NewArrayOfValues(l) *)
| QMapOf (l : option (list (str * iface)))         (* NewMapOfValues(l), in the order of its range *)
| QTime (places : option Z) (v : nat) | QTimeV (v : nat)   (* GetTime, GetTimeWithDecimalPlaces, GetTimeValue *)
| QMapTime (places : option Z) (m : nat) (k : str).

(** What a call returns, with the handles taken out: a 0 stands where a handle was. *)
Inductive fact :=
| FOut (o : out) | FAns (a : answer) | FPtr (r : gres (option nat)) | FList (a : lanswer)
| FMapList (a : manswer) | FRunes (r : gres (option (list N)))
| FPtrs (r : gres (list (option nat))) | FMapPtrs (r : gres (option (list (option nat))))
| FText (r : option str * list err) | FWords (r : str * list err) | FString (r : gres str)
| FLoc (r : gres nat) | FBool (b : bool) | FTime (r : gres (option nat)) | FTimeV (r : gres nat).
Definition reply := (fact * list nat)%type.

(** Handles of arguments and results. *)
Definition rename_iface (f : nat -> nat) (i : iface) : iface :=
  match i with
  | IPtr t o => IPtr t (option_map f o)
  | IPMap o => IPMap (option_map f o)
  | IPArr o => IPArr (option_map f o)
  | IPVal o => IPVal (option_map f o)
  | IMap n => IMap (f n)
  | IArr n => IArr (f n)
  | IVal n => IVal (f n)
  | _ => i
  end.
Definition api_handles (c : api) : list nat :=
  match c with
  | ANewVar _ | ANewArray | ANewMap => []
  | AVarSet p _ | AVarGet p => [p]
  | ANewValue i => iface_handles i
  | AMapSetValue m _ o => m :: oh o
  | AMapSet m _ i => m :: iface_handles i
  | AMapSetScalarValue m _ _ | AMapRemoveKey m _ | AMapHasKey m _ | AMapGetValue m _ | AMapGetKeys m | AMapValues m => [m]
  | AArrAppendValue a o | AArrSetValueAtIndex a _ o => a :: oh o
  | AArrAppend a i => a :: iface_handles i
  | AArrRemoveValueAtIndex a _ | AArrLen a | AArrGetValues a => [a]
  | AValSetObject v i => v :: iface_handles i
  | AValGetObject v => [v]
  end.
Definition rename_api (f : nat -> nat) (c : api) : api :=
  match c with
  | ANewVar s => ANewVar s | ANewArray => ANewArray | ANewMap => ANewMap
  | AVarSet p s => AVarSet (f p) s
  | AVarGet p => AVarGet (f p)
  | ANewValue i => ANewValue (rename_iface f i)
  | AMapSetValue m k o => AMapSetValue (f m) k (option_map f o)
  | AMapSet m k i => AMapSet (f m) k (rename_iface f i)
  | AMapSetScalarValue m k s => AMapSetScalarValue (f m) k s
  | AMapRemoveKey m k => AMapRemoveKey (f m) k
  | AMapHasKey m k => AMapHasKey (f m) k
  | AMapGetValue m k => AMapGetValue (f m) k
  | AMapGetKeys m => AMapGetKeys (f m)
  | AMapValues m => AMapValues (f m)
  | AArrAppendValue a o => AArrAppendValue (f a) (option_map f o)
  | AArrAppend a i => AArrAppend (f a) (rename_iface f i)
  | AArrSetValueAtIndex a n o => AArrSetValueAtIndex (f a) n (option_map f o)
  | AArrRemoveValueAtIndex a n => AArrRemoveValueAtIndex (f a) n
  | AArrLen a => AArrLen (f a)
  | AArrGetValues a => AArrGetValues (f a)
  | AValSetObject v i => AValSetObject (f v) (rename_iface f i)
  | AValGetObject v => AValGetObject (f v)
  end.
Definition request_handles (q : request) : list nat :=
  match q with
  | QApi c => api_handles c
  | QMap _ m _ | QMapPtr _ m _ | QMapPtrs _ m _ | QMapIsNil m | QValues m | QMapText _ m _ | QMapTime _ m _
  | QMapVals _ m _ | QMapRunes m _ => [m]
  | QVal _ v | QValPtr _ v | QEqual v _ | QTime _ v | QTimeV v | QValRunes v => [v]
  | QArrPtrs _ a | QArrVals _ a | QElemStr a _ | QElemMap a _ | QArrText _ a _ => [a]
  | QToString i | QText _ i => iface_handles i
  | QClone _ _ l => [l]
  | QParse _ => []
  | QArrayOf l => match l with Some l => flat_map iface_handles l | None => [] end
  | QMapOf l => match l with Some l => flat_map (fun x => iface_handles (snd x)) l | None => [] end
  end.
Definition rename (f : nat -> nat) (q : request) : request :=
  match q with
  | QApi c => QApi (rename_api f c)
  | QMap g m k => QMap g (f m) k
  | QVal g v => QVal g (f v)
  | QMapPtr t m k => QMapPtr t (f m) k
  | QValPtr t v => QValPtr t (f v)
  | QArrPtrs t a => QArrPtrs t (f a)
  | QMapPtrs t m k => QMapPtrs t (f m) k
  | QArrVals g a => QArrVals g (f a)
  | QMapVals g m k => QMapVals g (f m) k
  | QValRunes v => QValRunes (f v)
  | QMapRunes m k => QMapRunes (f m) k
  | QElemStr a n => QElemStr (f a) n
  | QElemMap a n => QElemMap (f a) n
  | QEqual v s => QEqual (f v) s
  | QMapIsNil m => QMapIsNil (f m)
  | QValues m => QValues (f m)
  | QToString i => QToString (rename_iface f i)
  | QMapText n m b => QMapText n (f m) b
  | QArrText n a b => QArrText n (f a) b
  | QText n i => QText n (rename_iface f i)
  | QClone n k l => QClone n k (f l)
  | QParse s => QParse s
  | QArrayOf l => QArrayOf (option_map (map (rename_iface f)) l)
  | QMapOf l => QMapOf (option_map (map (fun x => (fst x, rename_iface f (snd x)))) l)
  | QTime p v => QTime p (f v)
  | QTimeV v => QTimeV (f v)
  | QMapTime p m k => QMapTime p (f m) k
  end.

Definition zero : nat -> nat := fun _ => 0.
Definition ohs (l : list (option nat)) : list nat := flat_map oh l.
Definition olist_zero (l : list (option nat)) : list (option nat) := map (option_map zero) l.
Definition gmap {A B} (f : A -> B) (r : gres A) : gres B := match r with GVal a => GVal (f a) | GErr e => GErr e end.
Definition ghandles {A} (f : A -> list nat) (r : gres A) : list nat := match r with GVal a => f a | GErr _ => [] end.

Definition out_reply (o : out) : reply :=
  match o with
  | OHandle n => (FOut (OHandle 0), [n])
  | OValue o => (FOut (OValue (option_map zero o)), oh o)
  | OElems l => (FOut (OElems (olist_zero l)), ohs l)
  | OObj i => (FOut (OObj (rename_iface zero i)), iface_handles i)
  | _ => (FOut o, [])
  end.
Definition answer_reply (a : answer) : reply :=
  match a with
  | AnsLoc o => (FAns (AnsLoc (option_map zero o)), oh o)
  | AnsObj i => (FAns (AnsObj (rename_iface zero i)), iface_handles i)
  | AnsLocP r => (FAns (AnsLocP (gmap (option_map zero) r)), ghandles oh r)
  | AnsLocV r => (FAns (AnsLocV (gmap zero r)), ghandles (fun n => [n]) r)
  | _ => (FAns a, [])
  end.
Definition ptr_reply (r : gres (option nat)) : reply := (FPtr (gmap (option_map zero) r), ghandles oh r).
Definition ptrs_reply (r : gres (list (option nat))) : reply := (FPtrs (gmap olist_zero r), ghandles ohs r).
Definition map_ptrs_reply (r : gres (option (list (option nat)))) : reply :=
  (FMapPtrs (gmap (option_map olist_zero) r), ghandles (fun o => match o with Some l => ohs l | None => [] end) r).
Definition loc_reply (r : gres nat) : reply := (FLoc (gmap zero r), ghandles (fun n => [n]) r).

Section Ask.
  Context (X : ext) (L : timelib).

  Definition time_reader (p : option Z) := match p with Some z => t_places L z | None => t_get L end.

  (** Making a call. *)
  Definition ask (q : request) : M reply :=
    match q with
    | QApi c => o <- run_call c ;; ret (out_reply o)
    | QMap g m k => a <- mlift (fun h => run_getter g X h m k) ;; ret (answer_reply a)
    | QVal g v => a <- mlift (fun h => run_vgetter g X h v) ;; ret (answer_reply a)
    | QMapPtr t m k => r <- map_ptr t X m k ;; ret (ptr_reply r)
    | QValPtr t v => r <- value_ptr t X v ;; ret (ptr_reply r)
    | QArrPtrs t a => r <- arr_ptrs t X a ;; ret (ptrs_reply r)
    | QMapPtrs t m k => r <- map_ptrs t X m k ;; ret (map_ptrs_reply r)
    | QArrVals g a => r <- mlift (fun h => run_lgetter g X h a) ;; ret (FList r, [])
    | QMapVals g m k => r <- mlift (fun h => run_mgetter g X h m k) ;; ret (FMapList r, [])
    | QValRunes v => r <- mlift (fun h => value_GetRunes X h v) ;; ret (FRunes r, [])
    | QMapRunes m k => r <- mlift (fun h => map_GetRunes X h m k) ;; ret (FRunes r, [])
    | QElemStr a n => r <- mlift (fun h => arr_GetStringValue X h a n) ;; ret (FString r, [])
    | QElemMap a n => r <- mlift (fun h => arr_GetMap X h a n) ;; ret (loc_reply r)
    | QEqual v s => b <- mlift (fun h => value_IsEqualToString X h v s) ;; ret (FBool b, [])
    | QMapIsNil m => b <- mlift (fun h => map_IsNil X h m) ;; ret (FBool b, [])
    | QValues m => a <- mlift (fun h => map_Values h m) ;; ret (loc_reply (GVal a))
    | QToString i => r <- mlift (fun h => conv_string X h i) ;; ret (FString r, [])
    | QMapText n m b => r <- mlift (fun h => map_ToJSONString n X h m b) ;; ret (FText r, [])
    | QArrText n a b => r <- mlift (fun h => arr_ToJSONString n X h a b) ;; ret (FText r, [])
    | QText n i => r <- mlift (fun h => conv_json n X h i) ;; ret (FWords r, [])
    | QClone n k l => r <- clone n X k l ;; ret (loc_reply r)
    | QParse s => r <- Parse X s ;; ret (ptr_reply r)
    | QArrayOf l => a <- new_array_of_values X l ;; ret (loc_reply (GVal a))
    | QMapOf l => m <- new_map_of_values X l ;; ret (loc_reply (GVal m))
    | QTime p v => r <- mlift (fun h => value_time (time_reader p) X h v) ;; ret (FTime r, [])
    | QTimeV v => r <- mlift (fun h => value_GetTimeValue L h v) ;; ret (FTimeV r, [])
    | QMapTime p m k => r <- mlift (fun h => map_via (GVal None) (value_time (time_reader p) X h) h m k) ;; ret (FTime r, [])
    end.

  (** What the program sees of a reply: handles by their first place in its table. *)
  Fixpoint place (n : nat) (t : list nat) : nat :=
    match t with [] => 0 | x :: t => if Nat.eqb x n then 0 else S (place n t) end.
  Definition seen := list (res (fact * list nat)).

  (** A program chooses the next call from what it has seen; the numbers in it are places in
      the table of handles.  It ends by itself, when it uses a place that does not exist, and
      with a panic. *)
  Definition client := seen -> option request.
  Fixpoint play (n : nat) (c : client) (s : seen) (t : list nat) (h : heap) : seen * heap :=
    match n with
    | O => (s, h)
    | S n' =>
        match c s with
        | None => (s, h)
        | Some q =>
            if forallb (fun i => Nat.ltb i (length t)) (request_handles q) then
              match ask (rename (fun i => nth i t 0) q) h with
              | Ok (r, h') =>
                  let t' := t ++ snd r in
                  play n' c (s ++ [Ok (fst r, map (fun x => place x t') (snd r))]) t' h'
              | Panic => (s ++ [Panic], h)
              | Stuck => (s ++ [Stuck], h)
              | NoFuel => (s ++ [NoFuel], h)
              end
            else (s, h)
        end
    end.
End Ask.
