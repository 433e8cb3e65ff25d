(** * json.Map (/repo/json/Map.go) *)
From Coq Require Import Ascii String List NArith ZArith Bool.
From Verif Require Import GoStr GoNum GoFloat Heap Common ValueModel ArrayModel.
Import ListNotations.
Local Open Scope Z_scope.

(** NewMap / NewMapValue, Map.go:162-174. *)
Definition new_map : M loc :=
  a <- new_array ;; alloc (CMap (MObj [] [] a)).

(** findIndexOfKey, Map.go:176-183; [None] is -1. *)
Fixpoint find_index (k : str) (l : list str) : option nat :=
  match l with
  | [] => None
  | x :: t => if str_eqb x k then Some O
              else match find_index k t with Some n => Some (S n) | None => None end
  end.

(** getKeys / GetKeys, Map.go:196-198,575-577 (content of the returned slice; the
    sharing of its backing array is modelled in KeysSlice.v). *)
Definition map_GetKeys (h : heap) (m : loc) : res (list str) :=
  mo <-r rd_map h m ;; Ok (m_keys mo).

(** hasKey / HasKey, Map.go:200-203,851-853. *)
Definition has_key (mo : mobj) (k : str) : bool :=
  match tbl_get (m_tbl mo) k with Some _ => true | None => false end.
Definition map_HasKey (h : heap) (m : loc) (k : str) : res bool :=
  mo <-r rd_map h m ;; Ok (has_key mo k).

(** setInternalValue, Map.go:239-247 (the results of AppendValue and
    SetValueAtIndex are ignored, as in the code). *)
Definition map_setInternal (m : loc) (k : str) (o : option loc) : M unit :=
  fun h =>
    match rd_map h m with
    | Ok mo =>
        let put keys := fun h' : heap => wr m (CMap (MObj (tbl_put (m_tbl mo) k o) keys (m_vals mo))) h' in
        if negb (has_key mo k) || match m_keys mo with [] => true | _ => false end
        then (arr_AppendValue (m_vals mo) o ;; put (m_keys mo ++ [k])) h
        else match find_index k (m_keys mo) with
             | Some n => (arr_SetValueAtIndex (m_vals mo) (Z.of_nat n) o ;; put (m_keys mo)) h
             | None => put (m_keys mo) h
             end
    | _ => Stuck
    end.

(** SetValue, Map.go:1108-1110. *)
Definition map_SetValue (m : loc) (k : str) (o : option loc) : M unit := map_setInternal m k o.

(** SetObjectForMap and every setter that wraps its argument as it is (SetMap,
    SetArray, SetString, SetBool, SetInt.., SetFloat.., SetErrors, SetFunc,
    SetTime, SetNil), Map.go:446-449,578-581,586-589,608-611,821-824,831-834,
    839-842,847-850,984-1003,1024-1043,1064-1067,1072-1075,1086-1089. *)
Definition map_SetObject (m : loc) (k : str) (i : iface) : M unit :=
  v <- new_value i ;; map_setInternal m k (Some v).

(** SetTValue for a scalar type T: the argument is copied into a fresh variable
    and its address is stored, Map.go:835-838,843-846,1004-1023,1044-1063,
    1068-1071,1076-1079. *)
Definition map_SetScalarValue (m : loc) (k : str) (s : scalar) : M unit :=
  p <- alloc (CPtr s) ;; map_SetObject m k (IPtr (stype_of s) (Some p)).

(** SetMapValue, SetArrayValue, Map.go:450-453,582-585: the address of the copied
    struct is stored. *)
Definition map_SetMapValue (m : loc) (k : str) (z : loc) : M unit :=
  map_SetObject m k (IPMap (Some z)).
Definition map_SetArrayValue (m : loc) (k : str) (z : loc) : M unit :=
  map_SetObject m k (IPArr (Some z)).

(** getInternalValue / GetValue, Map.go:249-254,307-309. *)
Definition map_GetValue (h : heap) (m : loc) (k : str) : res (option loc) :=
  mo <-r rd_map h m ;;
  Ok (match tbl_get (m_tbl mo) k with Some o => o | None => None end).

(** isValueNilForMap / IsNull, Map.go:205-237,454-456. *)
Definition map_IsNull (h : heap) (m : loc) (k : str) : res bool :=
  mo <-r rd_map h m ;;
  match tbl_get (m_tbl mo) k with
  | Some (Some v) => i <-r rd_val h v ;; Ok (common_IsNil i)
  | _ => Ok true
  end.

(** removeKey and RemoveKey, Map.go:185-194,854-862.  The result is the Go pair
    [(bool, error)]. *)
Definition map_RemoveKey (m : loc) (k : str) : M (bool * option err) :=
  fun h =>
    match rd_map h m with
    | Ok mo =>
        if negb (has_key mo k) then Ok ((false, Some EKeyMap), h)
        else
          let tbl' := tbl_del (m_tbl mo) k in
          match find_index k (m_keys mo) with
          | None => (wr m (CMap (MObj tbl' (m_keys mo) (m_vals mo))) ;; ret (true, Some EKeyArr)) h
          | Some n =>
              (wr m (CMap (MObj tbl' (remove_nth n (m_keys mo)) (m_vals mo))) ;;
               arr_RemoveValueAtIndex (m_vals mo) (Z.of_nat n) ;; ret (true, None)) h
          end
    | _ => Stuck
    end.

(** Values, Map.go:1102-1104: the live internal array. *)
Definition map_Values (h : heap) (m : loc) : res loc :=
  mo <-r rd_map h m ;; Ok (m_vals mo).

(** Pattern of the typed getters: [nilres] when [isValueNilForMap], otherwise the
    getter of the stored Value (Map.go:590-1101). *)
Definition map_via {A} (nilres : A) (get : loc -> res A) (h : heap) (m : loc) (k : str) : res A :=
  b <-r map_IsNull h m k ;;
  if b then Ok nilres
  else o <-r map_GetValue h m k ;;
       match o with Some v => get v | None => Panic end.

(** Type predicates, Map.go:293-305,470-571,755-772. *)
Definition map_is (p : gtype -> bool) (X : ext) (h : heap) (m : loc) (k : str) : res bool :=
  map_via false (value_is p X h) h m k.
Definition map_IsBoolVal (b : bool) (X : ext) (h : heap) (m : loc) (k : str) : res bool :=
  map_via false (value_IsBoolVal b X h) h m k.
Definition map_IsEmptyString (X : ext) (h : heap) (m : loc) (k : str) : res bool :=
  map_via false (value_IsEmptyString X h) h m k.
(** GetType, Map.go:596-601. *)
Definition map_GetType (X : ext) (h : heap) (m : loc) (k : str) : res gtype :=
  map_via TNil (value_GetType X h) h m k.

(** getMap / GetMap, Map.go:275-281,437-439. *)
Definition map_GetMap (X : ext) (h : heap) (m : loc) (k : str) : res (gres (option loc)) :=
  o <-r map_GetValue h m k ;;
  match o with None => Ok (GVal None) | Some v => value_GetMap X h v end.
(** getMapValue / GetMapValue, Map.go:283-291,440-442. *)
Definition map_GetMapValue (X : ext) (h : heap) (m : loc) (k : str) : res (gres loc) :=
  o <-r map_GetValue h m k ;;
  match o with None => Ok (GErr [ENilValue]) | Some v => value_GetMapValue X h v end.
(** getArray / GetArray, Map.go:256-261,612-614. *)
Definition map_GetArray (X : ext) (h : heap) (m : loc) (k : str) : res (gres (option loc)) :=
  map_via (GVal None) (value_GetArray X h) h m k.
(** getArrayValue / GetArrayValue, Map.go:263-273,615-617. *)
Definition map_GetArrayValue (X : ext) (h : heap) (m : loc) (k : str) : res (gres loc) :=
  r <-r map_GetArray X h m k ;; Ok (to_value r).

(** Integer getters, Map.go:863-983,1080-1085.  GetUInt and GetUIntValue
    (Map.go:102,105) are declared but never assigned. *)
Definition map_GetIntKind (kd : ikind) (X : ext) (h : heap) (m : loc) (k : str)
  : res (gres (option Z)) :=
  match kd with
  | KUInt => Panic
  | _ => map_via (GVal None) (value_GetIntKind kd X h) h m k
  end.
Definition map_GetIntKindValue (kd : ikind) (X : ext) (h : heap) (m : loc) (k : str)
  : res (gres Z) :=
  match kd with
  | KUInt => Panic
  | _ => map_via (GErr [ENilValue]) (value_GetIntKindValue kd X h) h m k
  end.
(** Float getters, Map.go:781-808. *)
Definition map_GetFloat32 (X : ext) (h : heap) (m : loc) (k : str) :=
  map_via (GVal None) (value_GetFloat32 X h) h m k.
Definition map_GetFloat64 (X : ext) (h : heap) (m : loc) (k : str) :=
  map_via (GVal None) (value_GetFloat64 X h) h m k.
Definition map_GetFloat32Value (X : ext) (h : heap) (m : loc) (k : str) :=
  map_via (GErr [ENilValue]) (value_GetFloat32Value X h) h m k.
Definition map_GetFloat64Value (X : ext) (h : heap) (m : loc) (k : str) :=
  map_via (GErr [ENilValue]) (value_GetFloat64Value X h) h m k.
(** GetString, GetStringValue, GetBool, Map.go:749-754,773-780,825-830 (contents
    of the returned pointers).  GetBoolValue (Map.go:65) is never assigned. *)
Definition map_GetString (X : ext) (h : heap) (m : loc) (k : str) :=
  map_via (GVal None) (value_GetString_content X h) h m k.
Definition map_GetStringValue (X : ext) (h : heap) (m : loc) (k : str) :=
  map_via (GErr [ENilValue]) (value_GetStringValue X h) h m k.
Definition map_GetBool (X : ext) (h : heap) (m : loc) (k : str) :=
  map_via (GVal None) (value_GetBool_content X h) h m k.
(** GetErrors, Map.go:590-595. *)
Definition map_GetErrors (X : ext) (h : heap) (m : loc) (k : str) :=
  map_via (GVal []) (value_GetErrors X h) h m k.
(** GetFunc, Map.go:602-607.  SetFunc, Map.go:608-611, stores a new Value of the pointer,
    as the other setters do. *)
Definition map_GetFunc (X : ext) (h : heap) (m : loc) (k : str) :=
  map_via (GVal None) (value_GetFunc X h) h m k.
(** IsNil, Map.go:457-469: whether [common] knows the type of [internal_map], which is
    made in newMap and never nil (Map.go:172). *)
Definition table_type : gtype := TOther (lit "map[string]*json.Value").
Definition map_IsNil (X : ext) (h : heap) (m : loc) : res bool :=
  _ <-r rd_map h m ;; Ok (negb (common_recognised X table_type)).
(** GetObjectForMap, Map.go:815-820. *)
Definition map_GetObject (h : heap) (m : loc) (k : str) : res iface :=
  map_via INil (value_GetObject h) h m k.

(** GetArrayOfT(k), Map.go:618-698,706-714,722-739: nil when the array is nil. *)
Definition map_array_of {A} (get : heap -> loc -> res (gres (list A)))
  (X : ext) (h : heap) (m : loc) (k : str) : res (gres (option (list A))) :=
  r <-r map_GetArray X h m k ;;
  match r with
  | GErr e => Ok (GErr e)
  | GVal None => Ok (GVal None)
  | GVal (Some a) => q <-r get h a ;;
                     Ok (match q with GVal l => GVal (Some l) | GErr e => GErr e end)
  end.
(** GetArrayOfFloat32Value, GetArrayOfFloat64Value, Map.go:699-705,715-721: an
    error when the array is nil. *)
Definition map_array_of_value {A} (get : heap -> loc -> res (gres (list A)))
  (X : ext) (h : heap) (m : loc) (k : str) : res (gres (list A)) :=
  r <-r map_GetArrayValue X h m k ;;
  match r with
  | GErr e => Ok (GErr e)
  | GVal a => get h a
  end.

Fixpoint map_put_all (X : ext) (m : loc) (l : list (str * iface)) : M unit :=
  match l with
  | [] => ret tt
  | (k, i) :: t => o <- wrap_iface X i ;; map_setInternal m k o ;; map_put_all X m t
  end.

(** NewMapOfValues, Map.go:171,421-434.  The argument is the content of the Go
    map in the order the range statement visits it, which Go leaves
    unspecified; [None] is a nil argument. *)
Definition new_map_of_values (X : ext) (l : option (list (str * iface))) : M loc :=
  m <- new_map ;;
  match l with
  | None => ret m
  | Some l => map_put_all X m l ;; ret m
  end.
