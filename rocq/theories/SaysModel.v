(** * The texts of the getters' errors (/repo/json/Value.go, Map.go, Array.go)

    The models of the getters have kinds of errors.  Here the texts: each definition
    computes the messages of a call, in order, with the control flow of ValueModel.v,
    ArrayModel.v, MapModel.v and RunesModel.v. *)
From Coq Require Import Ascii String List NArith ZArith Bool.
From Verif Require Import GoStr GoNum GoFloat Heap Common ValueModel ArrayModel MapModel RunesModel GetterModel MessageModel.
Import ListNotations.
Local Open Scope Z_scope.

(** ** Names of types: the verb %T, as [common.GetType] returns it *)
Definition kind_text (k : ikind) : str :=
  lit match k with
      | KInt => "int" | KInt8 => "int8" | KInt16 => "int16" | KInt32 => "int32" | KInt64 => "int64"
      | KUInt => "uint" | KUInt8 => "uint8" | KUInt16 => "uint16" | KUInt32 => "uint32" | KUInt64 => "uint64"
      end.
Definition stype_text (t : stype) : str :=
  match t with
  | TyStr => lit "string" | TyBool => lit "bool" | TyInt k => kind_text k
  | TyFlt F32 => lit "float32" | TyFlt F64 => lit "float64"
  end.
(** "nil" is what [common.GetType] is assumed to say for nil (Common.v); the dynamic type
    of an [IErr] is that of errors.New (Heap.v). *)
Definition gtype_text (t : gtype) : str :=
  match t with
  | TNil => lit "nil"
  | TScal t => stype_text t
  | TPtr t => lit "*" ++ stype_text t
  | TMap => lit "json.Map" | TPMap => lit "*json.Map"
  | TArr => lit "json.Array" | TPArr => lit "*json.Array"
  | TVal => lit "json.Value" | TPVal => lit "*json.Value"
  | TErrs => lit "[]error" | TPErrs => lit "*[]error"
  | TStrs => lit "[]string" | TPStrs => lit "*[]string"
  | TErr => lit "*errors.errorString" | TPErr => lit "*error"
  | TTime => lit "time.Time" | TPTime => lit "*time.Time"
  | TFunc false => lit "func(string) []error" | TFunc true => lit "*func(string) []error"
  | TOther n => n
  end.

(** ** strconv.ParseInt(s, 10, 64) *)

(** Why it fails: after a sign it calls ParseUint, whose syntax errors it passes on. *)
Definition int_reason (s : str) : num_reason :=
  let u := match s with
           | c :: t => if Ascii.eqb c c_min || Ascii.eqb c c_plus then t else s
           | [] => []
           end in
  match u with
  | [] => NumSyntax
  | _ => match uint_scan 0 u with Some r => r | None => NumRange end
  end.

(** fmt's %s of a list of errors. *)
Fixpoint spaced (ms : list str) : str :=
  match ms with [] => [] | [m] => m | m :: t => m ++ lit " " ++ spaced t end.
Definition list_text (ms : list str) : str := lit "[" ++ spaced ms ++ lit "]".

(** [Q] is strconv.Quote. *)
Section Says.
  Context (Q : str -> str) (X : ext) (h : heap).

  (** [(&NumError{"ParseInt", s, err}).Error()]. *)
  Definition int_error (s : str) : str :=
    lit "strconv.ParseInt: parsing " ++ Q s
    ++ match int_reason s with
       | NumSyntax => lit ": invalid syntax"
       | NumRange => lit ": value out of range"
       end.

  (** ConvertInterfaceValueToStringValue, JSON.go:1098, for an object [tv]. *)
  Definition conv_text (tv : iface) : str :=
    lit "error: JSON.ConvertInterfaceValueToStringValue: type " ++ gtype_text (common_GetType X tv)
    ++ lit " is not supported please implement".

  (** ** json.Value *)

  (** GetInt64, Value.go:1025-1155. *)
  Definition int64_says (v : loc) : res (list str) :=
    i <-r rd_val h v ;;
    if iface_IsNil X i then Ok []
    else match i with
         | IVal w | IPVal (Some w) =>
             r <-r conv_string X h (IVal w) ;;
             match r with
             | GErr _ => tv <-r rd_val h w ;; Ok [conv_text tv]
             | GVal t => Ok (match parse_int 64 t with
                             | Some _ => []
                             | None => [lit "error: Map.GetInt64: cannot convert json.Value to int64 " ++ int_error t]
                             end)
             end
         | _ => o <-r deref h i ;;
                Ok (match o with
                    | Some (SInt KUInt64 z) =>
                        if 9223372036854775807 <? z then [format_uint z ++ lit " is greater than 9223372036854775807"] else []
                    | Some (SInt _ _) => []
                    | Some (SStr t) =>
                        match parse_int 64 t with
                        | Some _ => []
                        | None => match i with
                                  | IPtr _ _ => [lit "error: Map.GetInt64: cannot convert *string value to int64"]
                                  | _ => [lit "error: Map.GetInt64: cannot convert string value to int64"]
                                  end
                        end
                    | _ => [lit "error: Map.GetInt64: type " ++ gtype_text (common_GetType X i)
                            ++ lit " is not supported please implement"]
                    end)
         end.

  (** GetUInt64, Value.go:1216-1356 (the same text for a string and a *string). *)
  Definition uint64_says (v : loc) : res (list str) :=
    i <-r rd_val h v ;;
    if iface_IsNil X i then Ok []
    else o <-r deref h i ;;
         Ok (match o with
             | Some (SInt (KInt | KInt8 | KInt16 | KInt32 | KInt64) z) =>
                 if 0 <=? z then [] else [lit "error: Map.GetUInt64: cannot convert negative numbers for uint64"]
             | Some (SInt _ _) => []
             | Some (SStr t) =>
                 if str_eqb t (lit "NULL") then []
                 else match parse_uint 64 t with
                      | Some _ => []
                      | None => [lit "error: Map.GetUInt64: cannot convert *string value to uint64"]
                      end
             | _ => [lit "error: Map.GetUInt64: type " ++ gtype_text (common_GetType X i)
                     ++ lit " is not supported please implement"]
             end).

  (** The range checks, Value.go:1445,1497,1549,1601,1657,1727. *)
  Definition range_says (lo hi : Z) (text : str) (r : gres (option Z)) (ms : list str) : list str :=
    match r with
    | GVal (Some z) => if (z <? lo) || (hi <? z) then [text] else []
    | GVal None => []
    | GErr _ => ms
    end.
  Definition signed_says (lo hi : Z) (text : str) (v : loc) : res (list str) :=
    r <-r value_GetInt64 X h v ;; ms <-r int64_says v ;; Ok (range_says lo hi text r ms).
  Definition unsigned_says (lo hi : Z) (text : str) (v : loc) : res (list str) :=
    r <-r value_GetUInt64 X h v ;; ms <-r uint64_says v ;; Ok (range_says lo hi text r ms).

  Definition int32_says := signed_says (-2147483648) 2147483647 (lit "error: value is not in range [-2147483648, 2147483647]").

  (** GetInt8 (Value.go:1428-1457), GetUInt8 (1484-1509), GetInt16 (1536-1561), GetUInt16
      (1588-1613), GetInt32 (1640-1669), GetUInt32 (1714-1739), GetInt (1792-1823). *)
  Definition int_says (k : ikind) (v : loc) : res (list str) :=
    match k with
    | KInt => if x_is64 X then int64_says v else int32_says v
    | KInt8 => signed_says (-128) 127 (lit "error: value is not in range [-128, 127]") v
    | KInt16 => signed_says (-32768) 32767 (lit "error: value is not in range [-32768, 32767]") v
    | KInt32 => int32_says v
    | KInt64 => int64_says v
    | KUInt => Panic
    | KUInt8 => unsigned_says 0 255 (lit "error: value is not in range [0, 255]") v
    | KUInt16 => unsigned_says 0 65535 (lit "error: value is not in range [0, 65535]") v
    | KUInt32 => unsigned_says 0 4294967295 (lit "error: value is not in range [0, 4294967295]") v
    | KUInt64 => uint64_says v
    end.

  (** A getter that returns a value says [text] where the pointer getter gives nil. *)
  Definition nil_says {A} (text : str) (r : gres (option A)) (ms : list str) : list str :=
    match r with GVal None => [text] | _ => ms end.

  (** Value.go:1464,1516,1568,1620,1676,1702,1746,1772,1830.  (The message of
      Value.go:1780 is never given: a uint64 is not negative.) *)
  Definition int_nil_text (k : ikind) : str :=
    match k with
    | KInt => lit "error:  m.GetInt(s) returned nil"
    | KInt8 => lit "error: m.GetInt64(s) returned nil"
    | KInt16 | KInt32 | KInt64 => lit "error:  m.GetInt64(s) returned nil"
    | KUInt16 => lit "error: field: Value.GetUInt64(s) returned nil"
    | _ => lit "error: Value.GetUInt64(s) returned nil"
    end.
  (** GetInt8Value, ..., Value.go:1458-1483,1510-1535,1562-1587,1614-1639,1670-1713,
      1740-1791,1824-1841. *)
  Definition int_value_says (k : ikind) (v : loc) : res (list str) :=
    r <-r value_GetIntKind k X h v ;; ms <-r int_says k v ;; Ok (nil_says (int_nil_text k) r ms).

  (** GetFloat64, Value.go:671-795: the format of the last message has a verb without
      argument. *)
  Definition float64_says (v : loc) : res (list str) :=
    i <-r rd_val h v ;;
    if iface_IsNil X i then Ok []
    else o <-r deref h i ;;
         Ok (match o with
             | Some (SFlt _ _) | Some (SInt _ _) => []
             | Some (SStr t) => match parse_float F64 t with
                                | Some _ => []
                                | None => [lit "error: Value.GetFloat64: cannot convert *string value to float64"]
                                end
             | _ => [lit "error: Value.GetFloat64: type " ++ gtype_text (common_GetType X i)
                     ++ lit " is not supported please implement for attribute: %!s(MISSING)"]
             end).

  Definition float32_text : str :=
    lit "error: strconv.ParseFloat returned error for converting to float32 number may be out of range".
  Definition float_nil_text : str := lit "error: Map.GetFloat64 returned a nil value".
  Definition narrow_says (f : flt) : list str :=
    match parse_float F32 (format_f f) with Some _ => [] | None => [float32_text] end.

  (** GetFloat32, Value.go:802-826. *)
  Definition float32_says (v : loc) : res (list str) :=
    r <-r value_GetFloat64 X h v ;; ms <-r float64_says v ;;
    Ok (match r with GErr _ => ms | GVal None => [] | GVal (Some f) => narrow_says f end).
  (** GetFloat32Value, Value.go:827-851. *)
  Definition float32_value_says (v : loc) : res (list str) :=
    r <-r value_GetFloat64 X h v ;; ms <-r float64_says v ;;
    Ok (match r with GErr _ => ms | GVal None => [float_nil_text] | GVal (Some f) => narrow_says f end).
  (** GetFloat64Value, Value.go:870-884. *)
  Definition float64_value_says (v : loc) : res (list str) :=
    r <-r value_GetFloat64 X h v ;; ms <-r float64_says v ;; Ok (nil_says float_nil_text r ms).

  (** GetString, Value.go:552-576: it panics before it adds its message. *)
  Definition string_says (v : loc) : res (list str) :=
    _ <-r value_GetString X v h ;; Ok [].
  (** GetStringValue, Value.go:583-597. *)
  Definition string_value_says (v : loc) : res (list str) :=
    r <-r value_GetString X v h ;; ms <-r string_says v ;;
    Ok (nil_says (lit "Value.GetStringValue is nil") (fst r) ms).

  (** GetRunes, Value.go:885-919.  (The message for a nil *string, Value.go:903, comes too
      late: IsNil is asked first.) *)
  Definition runes_says (v : loc) : res (list str) :=
    i <-r rd_val h v ;;
    if iface_IsNil X i then Ok []
    else match i with
         | IScal (SStr _) | IPtr TyStr (Some _) => Ok []
         | IPtr TyStr None =>
             Ok [lit "error: Value.GetString: *string value is null for attribute: " ++ gtype_text (common_GetType X i)]
         | _ => Ok [lit "error: Value.GetString: type " ++ gtype_text (common_GetType X i)
                    ++ lit " is not supported please implement for attribute: %!s(MISSING)"]
         end.

  Definition bool_type_text (i : iface) : str :=
    lit "error: Map.GetBool: type " ++ gtype_text (common_GetType X i) ++ lit " is not supported please implement".

  (** GetBool, Value.go:926-975. *)
  Definition bool_says (v : loc) : res (list str) :=
    i <-r rd_val h v ;;
    if iface_IsNil X i then Ok []
    else match i with
         | IScal (SBool _) | IPtr TyBool _ => Ok []
         | IScal (SStr _) | IPtr TyStr _ =>
             o <-r deref h i ;;
             match o with
             | Some (SStr s) =>
                 Ok (match bool_of_text s with
                     | Some _ => []
                     | None => match i with
                               | IPtr _ _ => [lit "error: Map.GetBool: unknown value for *string: " ++ s]
                               | _ => [lit "error: Map.GetBool: unknown value for string: " ++ s]
                               end
                     end)
             | _ => Stuck
             end
         | _ => Ok [bool_type_text i]
         end.
  (** GetBoolValue, Value.go:976-1021. *)
  Definition bool_value_says (v : loc) : res (list str) :=
    i <-r rd_val h v ;;
    if iface_IsNil X i then Ok [lit "Value.GetBoolValue value is nil"]
    else o <-r deref h i ;;
         Ok (match o with
             | Some (SBool _) => []
             | Some (SStr s) => match bool_of_text s with
                                | Some _ => []
                                | None => [lit "error: Value.GetBoolValue: unknown value"]
                                end
             | _ => [bool_type_text i]
             end).

  (** GetMap, Value.go:398-417. *)
  Definition unbox_text (i : iface) : str := gtype_text (common_GetType X i) ++ lit " failed to unbox to json.Map".
  Definition map_ptr_says (v : loc) : res (list str) :=
    i <-r rd_val h v ;;
    if iface_IsNil X i then Ok []
    else match i with IMap _ | IPMap _ => Ok [] | _ => Ok [unbox_text i] end.
  (** GetMapValue, Value.go:418-437. *)
  Definition map_value_says (v : loc) : res (list str) :=
    i <-r rd_val h v ;;
    if iface_IsNil X i then Ok [lit "map is nil"]
    else match i with
         | IMap _ | IPMap (Some _) => Ok []
         | IPMap None => Panic
         | _ => Ok [unbox_text i]
         end.

  (** GetArray, Value.go:515-539. *)
  Definition array_says (v : loc) : res (list str) :=
    i <-r rd_val h v ;;
    if iface_IsNil X i then Ok []
    else match i with
         | IArr _ | IPArr _ => Ok []
         | _ => Ok [lit "error: Value.GetArray: type " ++ gtype_text (common_GetType X i)
                    ++ lit " is not supported please implement"]
         end.
  (** GetArrayValue, Value.go:540-551. *)
  Definition array_value_says (v : loc) : res (list str) :=
    r <-r value_GetArrayValue X h v ;; ms <-r array_says v ;;
    b <-r value_IsNil X h v ;;
    Ok (match ms with [] => if b then [lit "Value.GetArrayValue array is nil"] else [] | _ => ms end).

  (** GetFunc, Value.go:438-460. *)
  Definition func_says (v : loc) : res (list str) :=
    i <-r rd_val h v ;;
    if iface_IsNil X i then Ok []
    else match common_GetType X i, i with
         | TFunc false, IFunc _ => Ok []
         | TFunc true, IPFunc (Some _) => Ok []
         | TFunc true, IPFunc None => Panic
         | _, _ => Ok [lit "error: Map.Func: type " ++ gtype_text (common_GetType X i)
                       ++ lit " is not supported please implement"]
         end.

  (** GetErrors, Value.go:461-514: the texts of the elements that cannot be converted. *)
  Fixpoint elems_say (l : list (option loc)) : res (list str) :=
    match l with
    | [] => Ok []
    | o :: t =>
        r <-r conv_string X h (IPVal o) ;;
        m <-r match r, o with
              | GErr _, Some w => tv <-r rd_val h w ;; Ok [conv_text tv]
              | _, _ => Ok []
              end ;;
        ms <-r elems_say t ;; Ok (m ++ ms)
    end.
  Definition errors_say (v : loc) : res (list str) :=
    i <-r rd_val h v ;;
    if iface_IsNil X i then Ok []
    else match i with
         | IErrs _ | IPErrs (Some _) | IStrs _ | IPStrs (Some _) => Ok []
         | IArr a | IPArr (Some a) => l <-r rd_arr h a ;; elems_say l
         | _ => Ok [lit "error: Value.GetErrors: type " ++ gtype_text (common_GetType X i)
                    ++ lit " is not supported please implement"]
         end.

  (** ** One name for every getter that returns errors *)
  Inductive asked :=
  | QInt (k : ikind) | QIntV (k : ikind) | QFlt (k : fkind) | QFltV (k : fkind)
  | QStr | QStrV | QBool | QBoolV | QMap | QMapV | QArr | QArrV | QErrs | QFunc | QRunes.

  Definition value_says (g : asked) (v : loc) : res (list str) :=
    match g with
    | QInt k => int_says k v | QIntV k => int_value_says k v
    | QFlt F64 => float64_says v | QFltV F64 => float64_value_says v
    | QFlt F32 => float32_says v | QFltV F32 => float32_value_says v
    | QStr => string_says v | QStrV => string_value_says v
    | QBool => bool_says v | QBoolV => bool_value_says v
    | QMap => map_ptr_says v | QMapV => map_value_says v
    | QArr => array_says v | QArrV => array_value_says v
    | QErrs => errors_say v | QFunc => func_says v | QRunes => runes_says v
    end.

  (** The errors of the same call in the models of the getters. *)
  Definition errs_of {A} (r : gres A) : list err := match r with GVal _ => [] | GErr e => e end.
  Definition value_errs (g : asked) (v : loc) : res (list err) :=
    match g with
    | QInt k => rmap errs_of (value_GetIntKind k X h v)
    | QIntV k => rmap errs_of (value_GetIntKindValue k X h v)
    | QFlt F64 => rmap errs_of (value_GetFloat64 X h v)
    | QFltV F64 => rmap errs_of (value_GetFloat64Value X h v)
    | QFlt F32 => rmap errs_of (value_GetFloat32 X h v)
    | QFltV F32 => rmap errs_of (value_GetFloat32Value X h v)
    | QStr => rmap errs_of (value_GetString_content X h v)
    | QStrV => rmap errs_of (value_GetStringValue X h v)
    | QBool => rmap errs_of (value_GetBool_content X h v)
    | QBoolV => rmap errs_of (value_GetBoolValue X h v)
    | QMap => rmap errs_of (value_GetMap X h v) | QMapV => rmap errs_of (value_GetMapValue X h v)
    | QArr => rmap errs_of (value_GetArray X h v) | QArrV => rmap errs_of (value_GetArrayValue X h v)
    | QErrs => rmap errs_of (value_GetErrors X h v)
    | QFunc => rmap errs_of (value_GetFunc X h v)
    | QRunes => rmap errs_of (value_GetRunes X h v)
    end.

  (** ** json.Map *)

  (** The messages for a missing key or nil, Map.go:269,287,776,790,798,878,892,906,920,
      934,942,956,964,979; [None]: the call returns nil and no error (Map.go:256-281,
      590-607,749-754,781-830,863-983,1080-1085). *)
  Definition map_nil_text (g : asked) : option str :=
    match g with
    | QIntV KInt8 => Some (lit "Map.GetInt8Value was nil")
    | QIntV KUInt8 => Some (lit "json.Map.GetUInt8Value value is nil")
    | QIntV KInt16 => Some (lit "json.Map.GetInt16Value value is nil")
    | QIntV KUInt16 => Some (lit "json.Map.GetUInt16Value value is nil")
    | QIntV KInt32 => Some (lit "json.Map.GetInt32Value value is nil")
    | QIntV KUInt32 => Some (lit "json.Map.GetUInt32Value value is nil")
    | QIntV KInt64 => Some (lit "json.Map.GetInt64Value value is nil")
    | QIntV KUInt64 => Some (lit "json.Map.GetUInt64Value value is nil")
    | QIntV KInt => Some (lit "json.Map.GetIntValue value is nil")
    | QFltV F32 => Some (lit "json.Map.GetFloat32Value value is nil")
    | QFltV F64 => Some (lit "json.Map.GetFloat64Value value is nil")
    | QStrV => Some (lit "json.Map.GetStringValue value is nil")
    | QMapV => Some (lit "Map.getMapValue value is nil")
    | QArrV => Some (lit "json.Map.GetArrayValue array is nil")
    | _ => None
    end.
  Definition opt_list (o : option str) : list str := match o with Some t => [t] | None => [] end.

  (** The getters of a map.  GetMap and GetMapValue only test the *Value
      (Map.go:275-291), GetArrayValue tests the result of GetArray (Map.go:263-273);
      GetUInt, GetUIntValue and GetBoolValue are never assigned. *)
  Definition map_says (g : asked) (m : loc) (k : str) : res (list str) :=
    match g with
    | QInt KUInt | QIntV KUInt | QBoolV => Panic
    | QMap | QMapV =>
        o <-r map_GetValue h m k ;;
        match o with None => Ok (opt_list (map_nil_text g)) | Some v => value_says g v end
    | QArrV =>
        r <-r map_GetArray X h m k ;;
        ms <-r map_via [] (value_says QArr) h m k ;;
        Ok (match r with GVal None => opt_list (map_nil_text QArrV) | _ => ms end)
    | _ => map_via (opt_list (map_nil_text g)) (value_says g) h m k
    end.
  Definition map_errs (g : asked) (m : loc) (k : str) : res (list err) :=
    match g with
    | QInt kd => rmap errs_of (map_GetIntKind kd X h m k)
    | QIntV kd => rmap errs_of (map_GetIntKindValue kd X h m k)
    | QFlt F64 => rmap errs_of (map_GetFloat64 X h m k)
    | QFltV F64 => rmap errs_of (map_GetFloat64Value X h m k)
    | QFlt F32 => rmap errs_of (map_GetFloat32 X h m k)
    | QFltV F32 => rmap errs_of (map_GetFloat32Value X h m k)
    | QStr => rmap errs_of (map_GetString X h m k)
    | QStrV => rmap errs_of (map_GetStringValue X h m k)
    | QBool => rmap errs_of (map_GetBool X h m k)
    | QBoolV => Panic
    | QMap => rmap errs_of (map_GetMap X h m k) | QMapV => rmap errs_of (map_GetMapValue X h m k)
    | QArr => rmap errs_of (map_GetArray X h m k) | QArrV => rmap errs_of (map_GetArrayValue X h m k)
    | QErrs => rmap errs_of (map_GetErrors X h m k)
    | QFunc => rmap errs_of (map_GetFunc X h m k)
    | QRunes => rmap errs_of (map_GetRunes X h m k)
    end.

  (** RemoveKey, Map.go:185-194,854-862. *)
  Definition remove_key_says (m : loc) (k : str) : res (list str) :=
    mo <-r rd_map h m ;;
    Ok (if negb (has_key mo k) then [lit "key not found in map"]
        else match find_index k (m_keys mo) with
             | None => [lit "key not found in array keys"]
             | Some _ => []
             end).

  (** ** json.Array *)

  (** SetValueAtIndex, RemoveValueAtIndex, Array.go:188-211. *)
  Definition at_index_says (a : loc) (idx : Z) : res (list str) :=
    l <-r rd_arr h a ;;
    Ok (if idx <? 0 then [lit "index must be non-zero"]
        else if Z.of_nat (length l) - 1 <? idx then [lit "index out of range"]
        else []).

  (** GetStringValue(index) and GetMap(index), Array.go:426-478: GetMap's messages also
      name GetStringValue. *)
  Definition arr_elem_says (get : loc -> res (list str)) (a : loc) (idx : Z) : res (list str) :=
    l <-r rd_arr h a ;;
    if idx <? 0 then Ok [lit "Array.GetStringValue index is less than 0"]
    else if Z.of_nat (length l) - 1 <? idx then Ok [lit "Array.GetStringValue index is out of range"]
    else match nth_error l (Z.to_nat idx) with
         | Some (Some v) =>
             ms <-r get v ;;
             Ok (match ms with [] => [] | _ => [lit "Array.GetStringValue has errors: " ++ list_text ms] end)
         | Some None => Panic
         | None => Stuck
         end.
  Definition arr_string_says := arr_elem_says string_value_says.
  Definition arr_map_says (a : loc) (idx : Z) : res (list str) :=
    r <-r arr_elem h a idx (fun v => value_GetMap X h v) ;;
    ms <-r arr_elem_says map_ptr_says a idx ;;
    Ok (nil_says (lit "Array.GetStringValue value is nil") r ms).

  (** The loops of GetArrayOfT and GetArrayOfTValue, Array.go:479-1131. *)
  Fixpoint collect_says (null : list str) (get : loc -> res (list str)) (l : list (option loc)) : res (list str) :=
    match l with
    | [] => Ok []
    | None :: t => ms <-r collect_says null get t ;; Ok (null ++ ms)
    | Some v :: t => m <-r get v ;; ms <-r collect_says null get t ;; Ok (m ++ ms)
    end.
  (** Array.go:705,732,...,948,1002,1056,1114; GetArrayOfInt, GetArrayOfUInt and their
      Value forms are never assigned. *)
  Definition array_of_says (g : asked) (a : loc) : res (list str) :=
    match g with
    | QInt (KInt | KUInt) | QIntV (KInt | KUInt) => Panic
    | QInt _ | QFlt _ | QStr | QBool => l <-r rd_arr h a ;; collect_says [] (value_says g) l
    | QIntV _ | QFltV _ | QStrV => l <-r rd_arr h a ;; collect_says [lit "array contained a null value"] (value_says g) l
    | QBoolV => l <-r rd_arr h a ;; collect_says [lit "array contained nil value"] (value_says g) l
    | _ => Panic
    end.
  Definition array_of_errs (g : asked) (a : loc) : res (list err) :=
    match g with
    | QInt k => rmap errs_of (arr_GetArrayOfIntKind k X h a)
    | QIntV k => rmap errs_of (arr_GetArrayOfIntKindValue k X h a)
    | QFlt F64 => rmap errs_of (arr_GetArrayOfFloat64 X h a)
    | QFltV F64 => rmap errs_of (arr_GetArrayOfFloat64Value X h a)
    | QFlt F32 => rmap errs_of (arr_GetArrayOfFloat32 X h a)
    | QFltV F32 => rmap errs_of (arr_GetArrayOfFloat32Value X h a)
    | QStr => rmap errs_of (arr_GetArrayOfString X h a)
    | QStrV => rmap errs_of (arr_GetArrayOfStringValue X h a)
    | QBool => rmap errs_of (arr_GetArrayOfBool X h a)
    | QBoolV => rmap errs_of (arr_GetArrayOfBoolValue X h a)
    | _ => Panic
    end.
  (** ** Map.GetArrayOf..., Map.go:618-748: the messages of getArray (getArrayValue for the
      Value forms of floats), else those of the array; GetArrayOfInt and GetArrayOfUInt
      are never assigned, and there are no Value forms of integers and strings. *)
  Definition map_list_says (g : asked) (m : loc) (k : str) : res (list str) :=
    match g with
    | QInt (KInt | KUInt) => Panic
    | QFltV _ =>
        r <-r map_GetArrayValue X h m k ;;
        match r with GErr _ => map_says QArrV m k | GVal a => array_of_says g a end
    | QInt _ | QFlt _ | QStr | QBool | QBoolV =>
        r <-r map_GetArray X h m k ;;
        match r with GErr _ => map_says QArr m k | GVal None => Ok [] | GVal (Some a) => array_of_says g a end
    | _ => Panic
    end.
  Definition map_list_errs (g : asked) (m : loc) (k : str) : res (list err) :=
    match g with
    | QInt (KInt | KUInt) => Panic
    | QInt kd => rmap errs_of (map_array_of (arr_GetArrayOfIntKind kd X) X h m k)
    | QFlt F64 => rmap errs_of (map_array_of (arr_GetArrayOfFloat64 X) X h m k)
    | QFlt F32 => rmap errs_of (map_array_of (arr_GetArrayOfFloat32 X) X h m k)
    | QFltV F64 => rmap errs_of (map_array_of_value (arr_GetArrayOfFloat64Value X) X h m k)
    | QFltV F32 => rmap errs_of (map_array_of_value (arr_GetArrayOfFloat32Value X) X h m k)
    | QStr => rmap errs_of (map_array_of (arr_GetArrayOfString X) X h m k)
    | QBool => rmap errs_of (map_array_of (arr_GetArrayOfBool X) X h m k)
    | QBoolV => rmap errs_of (map_array_of (arr_GetArrayOfBoolValue X) X h m k)
    | _ => Panic
    end.
End Says.
