(** * json.Value (/repo/json/Value.go) *)
From Coq Require Import Ascii String List NArith ZArith Bool.
From Verif Require Import GoStr GoNum GoFloat Heap Common.
Import ListNotations.
Local Open Scope Z_scope.

(** NewValue, Value.go:135-154: a fresh [internal_value]. *)
Definition new_value (i : iface) : M loc := alloc (CVal i).

(** GetObject, Value.go:147-149,1845-1847. *)
Definition value_GetObject (h : heap) (v : loc) : res iface := rd_val h v.

(** SetObject and every typed setter (SetMap, SetMapValue, SetArray,
    SetArrayValue, SetString, SetStringValue, SetBool, SetIntN, ..., SetNil,
    SetErrorsValue, SetTime), Value.go:151-153,365-376,577-582,796-801,852-869,
    920-925,1022-1024,1156-1215,1380-1385,1842-1844: all overwrite
    [internal_value] with their argument. *)
Definition value_SetObject (v : loc) (i : iface) : M unit :=
  fun h => match rd_val h v with Ok _ => wr v (CVal i) h | _ => Stuck end.

(** GetType, Value.go:1386-1388. *)
Definition value_GetType (X : ext) (h : heap) (v : loc) : res gtype :=
  i <-r rd_val h v ;; Ok (common_GetType X i).

(** IsNil, Value.go:651-664. *)
Definition iface_IsNil (X : ext) (i : iface) : bool :=
  common_IsNil i || negb (common_recognised X (common_GetType X i)).
Definition value_IsNil (X : ext) (h : heap) (v : loc) : res bool :=
  i <-r rd_val h v ;; Ok (iface_IsNil X i).

(** IsMap, IsString, IsBool, IsArray, IsNumber, IsFloat*, IsInteger, IsInt*,
    IsUInt*, Value.go:377-379,598-612,665-670,1389-1421: [p] is the matching
    predicate of Common.v. *)
Definition value_is (p : gtype -> bool) (X : ext) (h : heap) (v : loc) : res bool :=
  i <-r rd_val h v ;; Ok (p (common_GetType X i)).

Definition stype_eqb (a b : stype) : bool :=
  match a, b with
  | TyStr, TyStr | TyBool, TyBool => true
  | TyInt k, TyInt k' => ikind_eqb k k'
  | TyFlt F32, TyFlt F32 | TyFlt F64, TyFlt F64 => true
  | _, _ => false
  end.

(** The scalar denoted by an interface value of scalar or scalar pointer type:
    the type assertion and dereference of the [case "T":] and [case "*T":]
    branches.  [Ok None] for other types; a typed nil pointer panics. *)
Definition deref (h : heap) (i : iface) : res (option scalar) :=
  match i with
  | IScal s => Ok (Some s)
  | IPtr t (Some p) => s <-r rd_ptr h p ;;
                       if stype_eqb (stype_of s) t then Ok (Some s) else Stuck
  | IPtr _ None => Panic
  | _ => Ok None
  end.

(** IsBoolTrue, IsBoolFalse, Value.go:1422-1427 (via common, assumed to compare
    the denoted boolean). *)
Definition value_IsBoolVal (b : bool) (X : ext) (h : heap) (v : loc) : res bool :=
  i <-r rd_val h v ;;
  if common_IsNil i then Ok false
  else o <-r deref h i ;;
       Ok (match o with Some (SBool c) => Bool.eqb b c | _ => false end).

(** Decimal text of an integer: FormatInt for signed, FormatUint for unsigned
    kinds (JSON.go:930-969,1045-1084). *)
Definition int_text (k : ikind) (z : Z) : str :=
  match k with
  | KInt | KInt8 | KInt16 | KInt32 | KInt64 => format_int z
  | _ => format_uint z
  end.

Definition bool_text (b : bool) : str := if b then lit "true" else lit "false".

(** The switch of ConvertInterfaceValueToStringValue, JSON.go:1009-1099.  Of the error
    types (JSON.go:1014-1027) "error" is never the type of a value, and errors.errorString
    cannot be built outside package errors; the others are modelled.  The three types of
    [error_types] are dereferenced (JSON.go:1020,1024) or cannot be nil. *)
Definition conv_held (X : ext) (h : heap) (tv : iface) : res (gres str) :=
  match common_GetType X tv with
  | TScal _ | TPtr _ =>
      o <-r deref h tv ;;
      Ok (match o with
          | Some (SStr s) => GVal s
          | Some (SBool b) => GVal (bool_text b)
          | Some (SInt k z) => GVal (int_text k z)
          | Some (SFlt _ f) => GVal (format_f f)
          | None => GErr [EUnsupported]
          end)
  | TErr | TPErr => match tv with
                    | IErr s | IPErr (Some (Plain s)) | IPErr (Some (Typed _ s)) => Ok (GVal s)
                    | _ => Panic
                    end
  | TPTime => match tv with ITime (Some t) => Ok (GVal (x_time X t)) | _ => Panic end
  | TVal => match tv with
            | IVal v => o <-r rd_val h v ;; Ok (GVal (x_sprint X o))
            | _ => Stuck
            end
  | TPVal => match tv with
             | IPVal (Some v) => o <-r rd_val h v ;; Ok (GVal (x_sprint X o))
             | _ => Panic
             end
  | TOther n => if str_eqb n (lit "map[string]map[string][][]string") then Ok (GVal n)
                else if existsb (str_eqb n) error_types
                then if common_IsNil tv then Panic else Ok (GVal (x_sprint X tv))
                else Ok (GErr [EUnsupported])
  | _ => Ok (GErr [EUnsupported])
  end.

(** ConvertInterfaceValueToStringValue, JSON.go:991-1106. *)
Definition conv_string (X : ext) (h : heap) (i : iface) : res (gres str) :=
  if common_IsNil i then Ok (GVal (lit "null"))
  else
    tv <-r match i with
           | IVal v | IPVal (Some v) => rd_val h v
           | _ => Ok i
           end ;;
    conv_held X h tv.

(** GetMap, Value.go:398-417.  The result is the location of the map state. *)
Definition value_GetMap (X : ext) (h : heap) (v : loc) : res (gres (option loc)) :=
  i <-r rd_val h v ;;
  if iface_IsNil X i then Ok (GVal None)
  else match i with
       | IMap m => Ok (GVal (Some m))
       | IPMap o => Ok (GVal o)
       | _ => Ok (GErr [EType])
       end.

(** GetMapValue, Value.go:418-437.  (On error Go also returns a fresh empty map.) *)
Definition value_GetMapValue (X : ext) (h : heap) (v : loc) : res (gres loc) :=
  i <-r rd_val h v ;;
  if iface_IsNil X i then Ok (GErr [ENilValue])
  else match i with
       | IMap m => Ok (GVal m)
       | IPMap (Some m) => Ok (GVal m)
       | IPMap None => Panic
       | _ => Ok (GErr [EType])
       end.

(** GetArray, Value.go:515-539. *)
Definition value_GetArray (X : ext) (h : heap) (v : loc) : res (gres (option loc)) :=
  i <-r rd_val h v ;;
  if iface_IsNil X i then Ok (GVal None)
  else match i with
       | IArr a => Ok (GVal (Some a))
       | IPArr o => Ok (GVal o)
       | _ => Ok (GErr [EType])
       end.

(** GetArrayValue, Value.go:540-551. *)
Definition value_GetArrayValue (X : ext) (h : heap) (v : loc) : res (gres loc) :=
  r <-r value_GetArray X h v ;;
  match r with
  | GErr e => Ok (GErr e)
  | GVal None => b <-r value_IsNil X h v ;; if b then Ok (GErr [ENilValue]) else Panic
  | GVal (Some a) => b <-r value_IsNil X h v ;; if b then Ok (GErr [ENilValue]) else Ok (GVal a)
  end.

(** GetString, Value.go:552-576.  For a [*string] the stored pointer itself is
    returned, for a [string] a fresh pointer.  Any other non-nil type panics. *)
Definition value_GetString (X : ext) (v : loc) : M (gres (option loc)) :=
  fun h =>
    i <-r rd_val h v ;;
    if iface_IsNil X i then Ok (GVal None, h)
    else match i with
         | IScal (SStr s) => bind (alloc (CPtr (SStr s))) (fun p => ret (GVal (Some p))) h
         | IPtr TyStr p => Ok (GVal p, h)
         | _ => Panic
         end.

(** GetStringValue, Value.go:583-597. *)
Definition value_GetStringValue (X : ext) (h : heap) (v : loc) : res (gres str) :=
  r <-r value_GetString X v h ;;
  match r with
  | (GErr e, _) => Ok (GErr e)
  | (GVal None, _) => Ok (GErr [ENilValue])
  | (GVal (Some p), h') => s <-r rd_ptr h' p ;;
                           match s with SStr t => Ok (GVal t) | _ => Stuck end
  end.

(** IsEmptyString, Value.go:380-397. *)
Definition value_IsEmptyString (X : ext) (h : heap) (v : loc) : res bool :=
  i <-r rd_val h v ;;
  if iface_IsNil X i then Ok false
  else if negb (common_IsString (common_GetType X i)) then Ok false
  else r <-r value_GetStringValue X h v ;;
       Ok (match r with GVal [] => true | _ => false end).

(** IsValueEqualToString / IsValueEqualToStringValue, Value.go:613-650; [s] is
    [None] for a nil [*string] argument. *)
Definition value_IsEqualToString (X : ext) (h : heap) (v : loc) (s : option str) : res bool :=
  i <-r rd_val h v ;;
  match iface_IsNil X i, s with
  | true, None => Ok true
  | true, Some _ | false, None => Ok false
  | false, Some t => r <-r value_GetStringValue X h v ;;
                     Ok (match r with GVal u => str_eqb u t | GErr _ => false end)
  end.

(** GetFloat64, Value.go:671-795 (result: the float the fresh pointer denotes). *)
Definition scalar_float64 (s : scalar) : gres (option flt) :=
  match s with
  | SFlt F64 f => GVal (Some f)
  | SFlt F32 f => GVal (Some (flt_conv F64 f))
  | SInt _ z => GVal (Some (flt_of_Z F64 z))
  | SStr t => match parse_float F64 t with
              | Some f => GVal (Some f)
              | None => GErr [EConv]
              end
  | SBool _ => GErr [EType]
  end.

Definition value_GetFloat64 (X : ext) (h : heap) (v : loc) : res (gres (option flt)) :=
  i <-r rd_val h v ;;
  if iface_IsNil X i then Ok (GVal None)
  else o <-r deref h i ;;
       Ok (match o with Some s => scalar_float64 s | None => GErr [EType] end).

(** The [XValue] getters turn a nil pointer into an error (Value.go:870-884,
    1458-1483, 1510-1535, 1562-1587, 1614-1639, 1670-1713, 1740-1791,
    1824-1841). *)
Definition to_value {A} (r : gres (option A)) : gres A :=
  match r with
  | GVal (Some a) => GVal a
  | GVal None => GErr [ENilValue]
  | GErr e => GErr e
  end.

Definition value_GetFloat64Value (X : ext) (h : heap) (v : loc) : res (gres flt) :=
  r <-r value_GetFloat64 X h v ;; Ok (to_value r).

(** Narrowing of a float64 to float32 through its "%f" text, Value.go:815-824. *)
Definition narrow_float32 (f : flt) : gres flt :=
  match parse_float F32 (format_f f) with
  | Some g => GVal (flt_conv F32 g)
  | None => GErr [EFloatRange]
  end.

(** GetFloat32, Value.go:802-826. *)
Definition value_GetFloat32 (X : ext) (h : heap) (v : loc) : res (gres (option flt)) :=
  r <-r value_GetFloat64 X h v ;;
  Ok (match r with
      | GErr e => GErr e
      | GVal None => GVal None
      | GVal (Some f) => match narrow_float32 f with
                         | GVal g => GVal (Some g)
                         | GErr e => GErr e
                         end
      end).

(** GetFloat32Value, Value.go:827-851. *)
Definition value_GetFloat32Value (X : ext) (h : heap) (v : loc) : res (gres flt) :=
  r <-r value_GetFloat64 X h v ;;
  Ok (match to_value r with
      | GErr e => GErr e
      | GVal f => narrow_float32 f
      end).

(** Boolean text, Value.go:944-948. *)
Definition bool_of_text (s : str) : option bool :=
  if str_eqb s (lit "1") || str_eqb s (lit "true") then Some true
  else if str_eqb s (lit "0") || str_eqb s (lit "false") then Some false
  else None.

(** GetBool, Value.go:926-975.  For a [*bool] the stored pointer is returned. *)
Definition value_GetBool (X : ext) (v : loc) : M (gres (option loc)) :=
  fun h =>
    i <-r rd_val h v ;;
    if iface_IsNil X i then Ok (GVal None, h)
    else match i with
         | IScal (SBool b) => bind (alloc (CPtr (SBool b))) (fun p => ret (GVal (Some p))) h
         | IPtr TyBool p => Ok (GVal p, h)
         | IScal (SStr _) | IPtr TyStr _ =>
             o <-r deref h i ;;
             match o with
             | Some (SStr s) =>
                 match bool_of_text s with
                 | Some b => bind (alloc (CPtr (SBool b))) (fun p => ret (GVal (Some p))) h
                 | None => Ok (GErr [EBoolText], h)
                 end
             | _ => Stuck
             end
         | _ => Ok (GErr [EType], h)
         end.

(** GetBoolValue, Value.go:976-1021. *)
Definition value_GetBoolValue (X : ext) (h : heap) (v : loc) : res (gres bool) :=
  i <-r rd_val h v ;;
  if iface_IsNil X i then Ok (GErr [ENilValue])
  else o <-r deref h i ;;
       Ok (match o with
           | Some (SBool b) => GVal b
           | Some (SStr s) => match bool_of_text s with
                              | Some b => GVal b
                              | None => GErr [EBoolText]
                              end
           | _ => GErr [EType]
           end).

(** GetInt64 on a scalar, Value.go:1063-1147. *)
Definition scalar_int64 (s : scalar) : gres (option Z) :=
  match s with
  | SInt KUInt64 z => if 9223372036854775807 <? z then GErr [EGreater] else GVal (Some (wrap64 z))
  | SInt _ z => GVal (Some (wrap64 z))
  | SStr t => match parse_int 64 t with
              | Some z => GVal (Some z)
              | None => GErr [EConv]
              end
  | _ => GErr [EType]
  end.

(** GetInt64, Value.go:1025-1155. *)
Definition value_GetInt64 (X : ext) (h : heap) (v : loc) : res (gres (option Z)) :=
  i <-r rd_val h v ;;
  if iface_IsNil X i then Ok (GVal None)
  else match i with
       | IVal w | IPVal (Some w) =>
           r <-r conv_string X h (IVal w) ;;
           Ok (match r with
               | GErr e => GErr e
               | GVal t => match parse_int 64 t with
                           | Some z => GVal (Some z)
                           | None => GErr [EConv]
                           end
               end)
       | _ => o <-r deref h i ;;
              Ok (match o with Some s => scalar_int64 s | None => GErr [EType] end)
       end.

(** The range checks of GetInt8/16/32 and GetUInt8/16/32, followed by the
    conversion to the narrower type, which is exact inside the range
    (Value.go:1428-1765). *)
Definition narrow (lo hi : Z) (r : gres (option Z)) : gres (option Z) :=
  match r with
  | GVal (Some z) => if (z <? lo) || (hi <? z) then GErr [ERange] else GVal (Some z)
  | _ => r
  end.

Definition value_GetInt8 X h v := r <-r value_GetInt64 X h v ;; Ok (narrow (-128) 127 r).
Definition value_GetInt16 X h v := r <-r value_GetInt64 X h v ;; Ok (narrow (-32768) 32767 r).
Definition value_GetInt32 X h v :=
  r <-r value_GetInt64 X h v ;; Ok (narrow (-2147483648) 2147483647 r).

(** GetInt, Value.go:1792-1823. *)
Definition value_GetInt X h v :=
  if x_is64 X then value_GetInt64 X h v else value_GetInt32 X h v.

(** GetUInt64 on a scalar, Value.go:1225-1349. *)
Definition scalar_uint64 (s : scalar) : gres (option Z) :=
  match s with
  | SInt (KInt | KInt8 | KInt16 | KInt32 | KInt64) z =>
      if 0 <=? z then GVal (Some z) else GErr [ENegative]
  | SInt _ z => GVal (Some z)
  | SStr t => if str_eqb t (lit "NULL") then GVal None
              else match parse_uint 64 t with
                   | Some z => GVal (Some z)
                   | None => GErr [EConv]
                   end
  | _ => GErr [EType]
  end.

(** GetUInt64, Value.go:1216-1356. *)
Definition value_GetUInt64 (X : ext) (h : heap) (v : loc) : res (gres (option Z)) :=
  i <-r rd_val h v ;;
  if iface_IsNil X i then Ok (GVal None)
  else o <-r deref h i ;;
       Ok (match o with Some s => scalar_uint64 s | None => GErr [EType] end).

Definition value_GetUInt8 X h v := r <-r value_GetUInt64 X h v ;; Ok (narrow 0 255 r).
Definition value_GetUInt16 X h v := r <-r value_GetUInt64 X h v ;; Ok (narrow 0 65535 r).
Definition value_GetUInt32 X h v := r <-r value_GetUInt64 X h v ;; Ok (narrow 0 4294967295 r).

(** The integer getter for each target type.  [GetUInt] (Value.go:88) is
    declared but never assigned, so calling it panics. *)
Definition value_GetIntKind (k : ikind) (X : ext) (h : heap) (v : loc) : res (gres (option Z)) :=
  match k with
  | KInt => value_GetInt X h v
  | KInt8 => value_GetInt8 X h v
  | KInt16 => value_GetInt16 X h v
  | KInt32 => value_GetInt32 X h v
  | KInt64 => value_GetInt64 X h v
  | KUInt => Panic
  | KUInt8 => value_GetUInt8 X h v
  | KUInt16 => value_GetUInt16 X h v
  | KUInt32 => value_GetUInt32 X h v
  | KUInt64 => value_GetUInt64 X h v
  end.

(** GetIntValue, GetInt8Value, ..., GetUInt64Value. *)
Definition value_GetIntKindValue (k : ikind) (X : ext) (h : heap) (v : loc) : res (gres Z) :=
  r <-r value_GetIntKind k X h v ;; Ok (to_value r).

(** GetErrors on an array: every element is converted to text (Value.go:485-504). *)
Fixpoint conv_strings (X : ext) (h : heap) (l : list (option loc))
  : res (list str * list err) :=
  match l with
  | [] => Ok ([], [])
  | o :: t =>
      r <-r conv_string X h (IPVal o) ;;
      q <-r conv_strings X h t ;;
      Ok (match r with
          | GVal s => (s :: fst q, snd q)
          | GErr e => (fst q, e ++ snd q)
          end)
  end.

(** GetErrors, Value.go:461-514. *)
Definition value_GetErrors (X : ext) (h : heap) (v : loc) : res (gres (list goerr)) :=
  i <-r rd_val h v ;;
  if iface_IsNil X i then Ok (GVal [])
  else match i with
       | IErrs l | IPErrs (Some l) => Ok (GVal l)
       | IStrs l | IPStrs (Some l) => Ok (GVal (map Plain l))
       | IArr a | IPArr (Some a) =>
           l <-r rd_arr h a ;;
           q <-r conv_strings X h l ;;
           Ok (match snd q with [] => GVal (map Plain (fst q)) | e => GErr e end)
       | _ => Ok (GErr [EType])
       end.

(** GetFunc, Value.go:438-460: a function is returned by its identifier (simplification:
    the code returns a pointer to a new variable that holds it). *)
Definition value_GetFunc (X : ext) (h : heap) (v : loc) : res (gres (option nat)) :=
  i <-r rd_val h v ;;
  if iface_IsNil X i then Ok (GVal None)
  else match common_GetType X i, i with
       | TFunc false, IFunc f => Ok (GVal (Some f))
       | TFunc true, IPFunc (Some f) => Ok (GVal (Some f))
       | TFunc true, IPFunc None => Panic
       | _, _ => Ok (GErr [EType])
       end.
