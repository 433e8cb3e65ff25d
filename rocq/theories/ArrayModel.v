(** * json.Array (/repo/json/Array.go) *)
From Coq Require Import Ascii String List NArith ZArith Bool.
From Verif Require Import GoStr GoNum GoFloat Heap Common ValueModel.
Import ListNotations.
Local Open Scope Z_scope.

(** NewArray / NewArrayValue, Array.go:84-95. *)
Definition new_array : M loc := alloc (CArr []).

(** Len and GetValues, Array.go:113-119,185-187,420-422 (the returned pointer
    denotes the live slice; its content is returned here). *)
Definition arr_GetValues (h : heap) (a : loc) : res (list (option loc)) := rd_arr h a.
Definition arr_Len (h : heap) (a : loc) : res Z :=
  l <-r rd_arr h a ;; Ok (Z.of_nat (length l)).

(** AppendValue, AppendValueValue, Array.go:412-419. *)
Definition arr_AppendValue (a : loc) (o : option loc) : M unit :=
  fun h => match rd_arr h a with
           | Ok l => wr a (CArr (l ++ [o])) h
           | _ => Stuck
           end.

(** AppendT and AppendTValue for every type T, AppendNil, AppendMap, AppendArray,
    Array.go:247-411: [NewValue(arg)] appended. *)
Definition arr_AppendObject (a : loc) (i : iface) : M unit :=
  v <- new_value i ;; arr_AppendValue a (Some v).

(** SetValueAtIndex, Array.go:188-199; [None] stands for [(true, nil)] and
    [Some e] for [(false, e)]. *)
Definition arr_SetValueAtIndex (a : loc) (idx : Z) (o : option loc) : M (option err) :=
  fun h => match rd_arr h a with
           | Ok l =>
               if idx <? 0 then Ok (Some EIndexNeg, h)
               else if Z.of_nat (length l) - 1 <? idx then Ok (Some EIndexRange, h)
               else bind (wr a (CArr (upd l (Z.to_nat idx) o))) (fun _ => ret None) h
           | _ => Stuck
           end.

(** [append(l[:n], l[n+1:]...)]. *)
Definition remove_nth {A} (n : nat) (l : list A) : list A := firstn n l ++ skipn (S n) l.

(** RemoveValueAtIndex, Array.go:200-211. *)
Definition arr_RemoveValueAtIndex (a : loc) (idx : Z) : M (option err) :=
  fun h => match rd_arr h a with
           | Ok l =>
               if idx <? 0 then Ok (Some EIndexNeg, h)
               else if Z.of_nat (length l) - 1 <? idx then Ok (Some EIndexRange, h)
               else bind (wr a (CArr (remove_nth (Z.to_nat idx) l))) (fun _ => ret None) h
           | _ => Stuck
           end.

(** One element of NewArrayOfValues / NewMapOfValues (Array.go:99-110,
    Map.go:423-432): a Value handle is kept, anything else is wrapped. *)
Definition wrap_iface (X : ext) (i : iface) : M (option loc) :=
  match common_GetType X i, i with
  | TVal, IVal v => ret (Some v)
  | TPVal, IPVal o => ret o
  | _, _ => v <- new_value i ;; ret (Some v)
  end.

Fixpoint arr_append_all (X : ext) (a : loc) (l : list iface) : M unit :=
  match l with
  | [] => ret tt
  | i :: t => o <- wrap_iface X i ;; arr_AppendValue a o ;; arr_append_all X a t
  end.

(** NewArrayOfValues, Array.go:92-111; [None] is a nil argument.  (Go fills the
    slice before publishing the struct; here the cell is allocated first.) *)
Definition new_array_of_values (X : ext) (l : option (list iface)) : M loc :=
  a <- new_array ;;
  match l with
  | None => ret a
  | Some l => arr_append_all X a l ;; ret a
  end.

(** GetStringValue(index) and GetMap(index), Array.go:426-478.  A nil [*Value]
    element is dereferenced. *)
Definition arr_elem {A} (h : heap) (a : loc) (idx : Z) (get : loc -> res (gres A)) : res (gres A) :=
  l <-r rd_arr h a ;;
  if idx <? 0 then Ok (GErr [EIndexNeg])
  else if Z.of_nat (length l) - 1 <? idx then Ok (GErr [EIndexRange])
  else match nth_error l (Z.to_nat idx) with
       | Some (Some v) =>
           r <-r get v ;; Ok (match r with GErr _ => GErr [EElem] | GVal x => GVal x end)
       | Some None => Panic
       | None => Stuck
       end.

Definition arr_GetStringValue (X : ext) (h : heap) (a : loc) (idx : Z) : res (gres str) :=
  arr_elem h a idx (value_GetStringValue X h).

Definition arr_GetMap (X : ext) (h : heap) (a : loc) (idx : Z) : res (gres loc) :=
  r <-r arr_elem h a idx (fun v => value_GetMap X h v) ;; Ok (to_value r).

(** The loop of GetArrayOfT, Array.go:479-694,911-937,965-991,1019-1045,
    1076-1102: a nil element gives nil, errors of all elements are collected. *)
Fixpoint collect_ptr {A} (get : loc -> res (gres (option A))) (l : list (option loc))
  : res (list (option A) * list err) :=
  match l with
  | [] => Ok ([], [])
  | None :: t => q <-r collect_ptr get t ;; Ok (None :: fst q, snd q)
  | Some v :: t =>
      r <-r get v ;;
      q <-r collect_ptr get t ;;
      Ok (match r with
          | GVal x => (x :: fst q, snd q)
          | GErr e => (fst q, e ++ snd q)
          end)
  end.

(** The loop of GetArrayOfTValue, Array.go:695-910,938-964,992-1018,1046-1075,
    1103-1131: a nil element is an error. *)
Fixpoint collect_val {A} (get : loc -> res (gres A)) (l : list (option loc))
  : res (list A * list err) :=
  match l with
  | [] => Ok ([], [])
  | None :: t => q <-r collect_val get t ;; Ok (fst q, ENullElem :: snd q)
  | Some v :: t =>
      r <-r get v ;;
      q <-r collect_val get t ;;
      Ok (match r with
          | GVal x => (x :: fst q, snd q)
          | GErr e => (fst q, e ++ snd q)
          end)
  end.

Definition finish {A} (q : list A * list err) : gres (list A) :=
  match snd q with [] => GVal (fst q) | e => GErr e end.

Definition arr_collect_ptr {A} (get : loc -> res (gres (option A))) (h : heap) (a : loc)
  : res (gres (list (option A))) :=
  l <-r rd_arr h a ;; q <-r collect_ptr get l ;; Ok (finish q).
Definition arr_collect_val {A} (get : loc -> res (gres A)) (h : heap) (a : loc)
  : res (gres (list A)) :=
  l <-r rd_arr h a ;; q <-r collect_val get l ;; Ok (finish q).

(** GetArrayOfInt8 .. GetArrayOfUInt64, Array.go:479-694.  GetArrayOfInt and
    GetArrayOfUInt (Array.go:49,54) are declared but never assigned. *)
Definition arr_GetArrayOfIntKind (k : ikind) (X : ext) (h : heap) (a : loc) :=
  match k with
  | KInt | KUInt => Panic
  | _ => arr_collect_ptr (value_GetIntKind k X h) h a
  end.
(** GetArrayOfInt8Value .. GetArrayOfUInt64Value, Array.go:695-910. *)
Definition arr_GetArrayOfIntKindValue (k : ikind) (X : ext) (h : heap) (a : loc) :=
  match k with
  | KInt | KUInt => Panic
  | _ => arr_collect_val (value_GetIntKindValue k X h) h a
  end.
(** GetArrayOfFloat32/64, Array.go:1019-1045,1076-1102. *)
Definition arr_GetArrayOfFloat32 (X : ext) (h : heap) (a : loc) :=
  arr_collect_ptr (value_GetFloat32 X h) h a.
Definition arr_GetArrayOfFloat64 (X : ext) (h : heap) (a : loc) :=
  arr_collect_ptr (value_GetFloat64 X h) h a.
(** GetArrayOfFloat32Value/64Value, Array.go:1046-1075,1103-1131. *)
Definition arr_GetArrayOfFloat32Value (X : ext) (h : heap) (a : loc) :=
  arr_collect_val (value_GetFloat32Value X h) h a.
Definition arr_GetArrayOfFloat64Value (X : ext) (h : heap) (a : loc) :=
  arr_collect_val (value_GetFloat64Value X h) h a.
(** GetArrayOfBoolValue, GetArrayOfStringValue, Array.go:938-964,992-1018. *)
Definition arr_GetArrayOfBoolValue (X : ext) (h : heap) (a : loc) :=
  arr_collect_val (value_GetBoolValue X h) h a.
Definition arr_GetArrayOfStringValue (X : ext) (h : heap) (a : loc) :=
  arr_collect_val (value_GetStringValue X h) h a.

(** Content denoted by the pointer results of GetString and GetBool. *)
Definition value_GetString_content (X : ext) (h : heap) (v : loc) : res (gres (option str)) :=
  r <-r value_GetString X v h ;;
  match r with
  | (GErr e, _) => Ok (GErr e)
  | (GVal None, _) => Ok (GVal None)
  | (GVal (Some p), h') => s <-r rd_ptr h' p ;;
                           match s with SStr t => Ok (GVal (Some t)) | _ => Stuck end
  end.
Definition value_GetBool_content (X : ext) (h : heap) (v : loc) : res (gres (option bool)) :=
  r <-r value_GetBool X v h ;;
  match r with
  | (GErr e, _) => Ok (GErr e)
  | (GVal None, _) => Ok (GVal None)
  | (GVal (Some p), h') => s <-r rd_ptr h' p ;;
                           match s with SBool t => Ok (GVal (Some t)) | _ => Stuck end
  end.

(** GetArrayOfString, GetArrayOfBool, Array.go:911-937,965-991 (contents of the
    returned pointers). *)
Definition arr_GetArrayOfString (X : ext) (h : heap) (a : loc) :=
  arr_collect_ptr (value_GetString_content X h) h a.
Definition arr_GetArrayOfBool (X : ext) (h : heap) (a : loc) :=
  arr_collect_ptr (value_GetBool_content X h) h a.
