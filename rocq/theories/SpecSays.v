(** * Specification: the texts of the getters' errors

    Which messages a getter of a Value gives for the object it holds, and what the getters
    of maps and arrays add. *)
From Coq Require Import Ascii String List NArith ZArith Bool.
From Verif Require Import GoStr GoNum GoFloat Heap Common ValueModel ArrayModel MapModel SpecDict SpecNum SpecWorld SpecDoc SpecRender
  SpecMessage SpecNamed SpecString SaysModel.
Import ListNotations.
Local Open Scope Z_scope.

(** [i] is the scalar [s] or a pointer to it. *)
Definition stands_for (h : heap) (i : iface) (s : scalar) : Prop :=
  i = IScal s \/ exists p, i = IPtr (stype_of s) (Some p) /\ nth_error h p = Some (CPtr s).

(** Why a text is no int64, in the words of package strconv: [u] is what follows the sign. *)
Definition after_sign (t u : str) : Prop := t = u \/ t = "+"%char :: u \/ t = "-"%char :: u.
Inductive int_problem (t : str) : str -> Prop :=
| ip_range u : after_sign t u -> starts_too_large u \/ (exists z, numeral u z) -> int_problem t (lit "value out of range")
| ip_syntax : (forall u z, after_sign t u -> ~ starts_too_large u /\ ~ numeral u z) -> int_problem t (lit "invalid syntax").

(** The least and the greatest number of an integer type. *)
Definition least (is64 : bool) (k : ikind) (z : Z) : Prop :=
  fits is64 k z /\ forall y, fits is64 k y -> z <= y.
Definition greatest (is64 : bool) (k : ikind) (z : Z) : Prop :=
  fits is64 k z /\ forall y, fits is64 k y -> y <= z.

Definition is_value (i : iface) (w : nat) : Prop := i = IVal w \/ i = IPVal (Some w).

(** A Go variable of an integer type holds a number of that type. *)
Definition typed_ints (X : ext) (h : heap) (i : iface) : Prop :=
  forall k z, stands_for h i (SInt k z) -> fits (x_is64 X) k z.

Section Texts.
  (** [Q] is strconv.Quote. *)
  Context (Q : str -> str) (X : ext) (h : heap).

  (** Value.IsNil: nil, a nil pointer, or an object of a type that is not recognised. *)
  Definition counts_as_nil (i : iface) : Prop := unset X i = true.
  (** Value.GetType. *)
  Definition go_type (i : iface) : str := gtype_text (common_GetType X i).

  (** ** Integers *)

  (** The number in [i] as an int64: an unsigned integer of type uint loses a bit. *)
  Inductive signed_of (i : iface) : Z -> Prop :=
  | so_int k u z : stands_for h i (SInt k u) -> (k = KUInt64 -> u < 2 ^ 63) ->
      (z mod 2 ^ 64 = u mod 2 ^ 64) -> fits true KInt64 z -> signed_of i z
  | so_text t z : stands_for h i (SStr t) -> signed_numeral t z -> fits true KInt64 z -> signed_of i z
  | so_value w t z : is_value i w -> conv_string X h (IVal w) = Ok (GVal t) ->
      signed_numeral t z -> fits true KInt64 z -> signed_of i z.
  (** The number in [i] as a uint64. *)
  Inductive unsigned_of (i : iface) : Z -> Prop :=
  | uo_int k z : stands_for h i (SInt k z) -> 0 <= z -> unsigned_of i z
  | uo_text t z : stands_for h i (SStr t) -> numeral t z -> fits true KUInt64 z -> unsigned_of i z.

  Definition unsupported (method : str) (i : iface) (rest : str) : str :=
    lit "error: " ++ method ++ lit ": type " ++ go_type i ++ lit " is not supported please implement" ++ rest.

  (** The number found for an integer getter. *)
  Definition number_of (k : ikind) (i : iface) (z : Z) : Prop :=
    (is_signed k /\ signed_of i z) \/ (~ is_signed k /\ unsigned_of i z).

  Inductive int_texts (k : ikind) (i : iface) : list str -> Prop :=
  | it_nil : counts_as_nil i -> int_texts k i []
  | it_fits z : ~ counts_as_nil i -> number_of k i z -> fits (x_is64 X) k z -> int_texts k i []
  | it_range z lo hi a b :
      ~ counts_as_nil i -> number_of k i z -> ~ fits (x_is64 X) k z ->
      least (x_is64 X) k lo -> greatest (x_is64 X) k hi -> integer_text lo a -> integer_text hi b ->
      int_texts k i [lit "error: value is not in range [" ++ a ++ lit ", " ++ b ++ lit "]"]
  | it_greater u a :
      is_signed k -> stands_for h i (SInt KUInt64 u) -> 2 ^ 63 <= u -> integer_text u a ->
      int_texts k i [a ++ lit " is greater than 9223372036854775807"]
  | it_negative k' u :
      ~ is_signed k -> stands_for h i (SInt k' u) -> u < 0 ->
      int_texts k i [lit "error: Map.GetUInt64: cannot convert negative numbers for uint64"]
  | it_null : ~ is_signed k -> stands_for h i (SStr (lit "NULL")) -> int_texts k i []
  | it_text t :
      is_signed k -> stands_for h i (SStr t) -> (forall z, signed_numeral t z -> ~ fits true KInt64 z) ->
      int_texts k i [lit "error: Map.GetInt64: cannot convert " ++ go_type i ++ lit " value to int64"]
  | it_utext t :
      ~ is_signed k -> stands_for h i (SStr t) -> t <> lit "NULL" -> (forall z, numeral t z -> ~ fits true KUInt64 z) ->
      int_texts k i [lit "error: Map.GetUInt64: cannot convert *string value to uint64"]
  | it_value w t p :
      is_signed k -> is_value i w -> conv_string X h (IVal w) = Ok (GVal t) ->
      (forall z, signed_numeral t z -> ~ fits true KInt64 z) -> int_problem t p ->
      int_texts k i [lit "error: Map.GetInt64: cannot convert json.Value to int64 strconv.ParseInt: parsing " ++ Q t ++ lit ": " ++ p]
  | it_value_type w o e :
      is_signed k -> is_value i w -> conv_string X h (IVal w) = Ok (GErr e) -> nth_error h w = Some (CVal o) ->
      int_texts k i [unsupported (lit "JSON.ConvertInterfaceValueToStringValue") o []]
  | it_type :
      ~ counts_as_nil i -> is_signed k -> (forall w, ~ is_value i w) ->
      (forall k' z, ~ stands_for h i (SInt k' z)) -> (forall t, ~ stands_for h i (SStr t)) ->
      int_texts k i [unsupported (lit "Map.GetInt64") i []]
  | it_utype :
      ~ counts_as_nil i -> ~ is_signed k ->
      (forall k' z, ~ stands_for h i (SInt k' z)) -> (forall t, ~ stands_for h i (SStr t)) ->
      int_texts k i [unsupported (lit "Map.GetUInt64") i []].

  (** The getter returns a nil pointer. *)
  Definition int_nil (k : ikind) (i : iface) : Prop :=
    counts_as_nil i \/ (~ is_signed k /\ stands_for h i (SStr (lit "NULL"))).
  Definition int_nil_says (k : ikind) : str :=
    match k with
    | KInt => lit "error:  m.GetInt(s) returned nil"
    | KInt8 => lit "error: m.GetInt64(s) returned nil"
    | KInt16 | KInt32 | KInt64 => lit "error:  m.GetInt64(s) returned nil"
    | KUInt16 => lit "error: field: Value.GetUInt64(s) returned nil"
    | _ => lit "error: Value.GetUInt64(s) returned nil"
    end.

  (** ** Floats *)

  (** The number in [i] as a float64. *)
  Inductive float_of (i : iface) : flt -> Prop :=
  | fo_flt k f : stands_for h i (SFlt k f) -> float_of i (match k with F64 => f | F32 => flt_conv F64 f end)
  | fo_int k z : stands_for h i (SInt k z) -> float_of i (flt_of_Z F64 z)
  | fo_text t f : stands_for h i (SStr t) -> parse_float F64 t = Some f -> float_of i f.
  Inductive float_texts (k : fkind) (i : iface) : list str -> Prop :=
  | ft_nil : counts_as_nil i -> float_texts k i []
  | ft_fits f : float_of i f -> (k = F32 -> exists g, parse_float F32 (format_f f) = Some g) -> float_texts k i []
  | ft_range f : float_of i f -> k = F32 -> parse_float F32 (format_f f) = None ->
      float_texts k i [lit "error: strconv.ParseFloat returned error for converting to float32 number may be out of range"]
  | ft_text t : stands_for h i (SStr t) -> parse_float F64 t = None ->
      float_texts k i [lit "error: Value.GetFloat64: cannot convert *string value to float64"]
  | ft_type :
      ~ counts_as_nil i -> (forall k' f, ~ stands_for h i (SFlt k' f)) -> (forall k' z, ~ stands_for h i (SInt k' z)) ->
      (forall t, ~ stands_for h i (SStr t)) ->
      float_texts k i [unsupported (lit "Value.GetFloat64") i (lit " for attribute: %!s(MISSING)")].

  (** ** Booleans *)
  Definition bool_word (t : str) : Prop := In t [lit "1"; lit "true"; lit "0"; lit "false"].
  Inductive bool_texts (unknown : iface -> str -> str) (nil : list str) (i : iface) : list str -> Prop :=
  | bt_nil : counts_as_nil i -> bool_texts unknown nil i nil
  | bt_bool b : stands_for h i (SBool b) -> bool_texts unknown nil i []
  | bt_word t : stands_for h i (SStr t) -> bool_word t -> bool_texts unknown nil i []
  | bt_text t : stands_for h i (SStr t) -> ~ bool_word t -> bool_texts unknown nil i [unknown i t]
  | bt_type :
      ~ counts_as_nil i -> (forall b, ~ stands_for h i (SBool b)) -> (forall t, ~ stands_for h i (SStr t)) ->
      bool_texts unknown nil i [unsupported (lit "Map.GetBool") i []].

  (** ** Errors: an element without text is reported by the type of what it holds *)
  Inductive elem_texts : list (option nat) -> list str -> Prop :=
  | et_nil : elem_texts [] []
  | et_text o l t ms : conv_string X h (IPVal o) = Ok (GVal t) -> elem_texts l ms -> elem_texts (o :: l) ms
  | et_none w i l e ms :
      conv_string X h (IPVal (Some w)) = Ok (GErr e) -> nth_error h w = Some (CVal i) -> elem_texts l ms ->
      elem_texts (Some w :: l) (unsupported (lit "JSON.ConvertInterfaceValueToStringValue") i [] :: ms).

  (** ** All getters of a Value *)
  Definition is_map (i : iface) : Prop := exists m, i = IMap m \/ i = IPMap (Some m).
  Definition is_array (i : iface) : Prop := exists a, i = IArr a \/ i = IPArr (Some a).
  Definition is_func (i : iface) : Prop := exists f, i = IFunc f \/ i = IPFunc (Some f).
  Definition is_error_list (i : iface) : Prop :=
    (exists l, i = IErrs l \/ i = IPErrs (Some l)) \/ (exists l, i = IStrs l \/ i = IPStrs (Some l)).
  Definition is_string (i : iface) : Prop := exists t, stands_for h i (SStr t).

  (** A getter that is satisfied with the objects [good], silent about nil or not, and
      otherwise says [text]. *)
  Inductive plain_texts (good : iface -> Prop) (nil text : list str) (i : iface) : list str -> Prop :=
  | pt_nil : counts_as_nil i -> plain_texts good nil text i nil
  | pt_good : ~ counts_as_nil i -> good i -> plain_texts good nil text i []
  | pt_other : ~ counts_as_nil i -> ~ good i -> plain_texts good nil text i text.

  Inductive texts : asked -> iface -> list str -> Prop :=
  | tx_int k i ms : k <> KUInt -> int_texts k i ms -> texts (QInt k) i ms
  | tx_int_nil k i : k <> KUInt -> int_nil k i -> texts (QIntV k) i [int_nil_says k]
  | tx_int_value k i ms : k <> KUInt -> ~ int_nil k i -> int_texts k i ms -> texts (QIntV k) i ms
  | tx_flt k i ms : float_texts k i ms -> texts (QFlt k) i ms
  | tx_flt_nil k i : counts_as_nil i -> texts (QFltV k) i [lit "error: Map.GetFloat64 returned a nil value"]
  | tx_flt_value k i ms : ~ counts_as_nil i -> float_texts k i ms -> texts (QFltV k) i ms
  (* the string getters panic on other objects *)
  | tx_str i : counts_as_nil i \/ is_string i -> texts QStr i []
  | tx_str_nil i : counts_as_nil i -> texts QStrV i [lit "Value.GetStringValue is nil"]
  | tx_str_value i : is_string i -> texts QStrV i []
  | tx_bool i ms :
      bool_texts (fun i t => lit "error: Map.GetBool: unknown value for " ++ go_type i ++ lit ": " ++ t) [] i ms -> texts QBool i ms
  | tx_bool_value i ms :
      bool_texts (fun i t => lit "error: Value.GetBoolValue: unknown value") [lit "Value.GetBoolValue value is nil"] i ms ->
      texts QBoolV i ms
  | tx_map i ms : plain_texts is_map [] [go_type i ++ lit " failed to unbox to json.Map"] i ms -> texts QMap i ms
  | tx_map_value i ms :
      plain_texts is_map [lit "map is nil"] [go_type i ++ lit " failed to unbox to json.Map"] i ms -> texts QMapV i ms
  | tx_arr i ms : plain_texts is_array [] [unsupported (lit "Value.GetArray") i []] i ms -> texts QArr i ms
  | tx_arr_value i ms :
      plain_texts is_array [lit "Value.GetArrayValue array is nil"] [unsupported (lit "Value.GetArray") i []] i ms -> texts QArrV i ms
  | tx_func i ms : plain_texts is_func [] [unsupported (lit "Map.Func") i []] i ms -> texts QFunc i ms
  | tx_runes i ms :
      plain_texts is_string [] [unsupported (lit "Value.GetString") i (lit " for attribute: %!s(MISSING)")] i ms -> texts QRunes i ms
  | tx_errs_array i a l ms :
      ~ counts_as_nil i -> i = IArr a \/ i = IPArr (Some a) -> rd_arr h a = Ok l -> elem_texts l ms -> texts QErrs i ms
  | tx_errs i ms : ~ is_array i -> plain_texts is_error_list [] [unsupported (lit "Value.GetErrors") i []] i ms -> texts QErrs i ms.

  (** ** The getters of a map *)

  (** What a map says of its own for a key without a value. *)
  Definition scalar_value_name (g : asked) : option string :=
    match g with
    | QIntV k => Some (type_name (TyInt k)) | QFltV k => Some (type_name (TyFlt k)) | QStrV => Some (type_name TyStr)
    | _ => None
    end.
  Definition nothing_says (g : asked) : list str :=
    match g, scalar_value_name g with
    | QIntV KInt8, _ => [lit "Map.GetInt8Value was nil"]
    | _, Some n => [lit "json.Map.Get" ++ lit n ++ lit "Value value is nil"]
    | QMapV, _ => [lit "Map.getMapValue value is nil"]
    | QArrV, _ => [lit "json.Map.GetArrayValue array is nil"]
    | _, _ => []
    end.
  Definition assigned (g : asked) : Prop := g <> QInt KUInt /\ g <> QIntV KUInt /\ g <> QBoolV.

  Inductive map_texts (w : world) (g : asked) (m : nat) (k : str) : list str -> Prop :=
  | mt_missing : assigned g -> SpecWorld.object_at w m k = None -> map_texts w g m k (nothing_says g)
  | mt_nil i :
      assigned g -> g <> QMap -> g <> QMapV -> SpecWorld.object_at w m k = Some i -> nil_object i = true ->
      map_texts w g m k (nothing_says g)
  | mt_value i ms :
      assigned g -> g <> QArrV -> SpecWorld.object_at w m k = Some i -> (nil_object i = false \/ g = QMap \/ g = QMapV) ->
      texts g i ms -> map_texts w g m k ms
  (* GetArrayValue: the message about nil is the map's *)
  | mt_array_nil i :
      g = QArrV -> SpecWorld.object_at w m k = Some i -> counts_as_nil i -> map_texts w g m k (nothing_says QArrV)
  | mt_array i ms :
      g = QArrV -> SpecWorld.object_at w m k = Some i -> ~ counts_as_nil i -> texts QArr i ms -> map_texts w g m k ms.

  (** ** Arrays *)

  (** The messages of all elements in order; [null]: those for a nil element. *)
  Inductive list_texts (null : list str) (g : asked) : list (option nat) -> list str -> Prop :=
  | lt_nil : list_texts null g [] []
  | lt_null l ms : list_texts null g l ms -> list_texts null g (None :: l) (null ++ ms)
  | lt_elem v i l m ms :
      nth_error h v = Some (CVal i) -> texts g i m -> list_texts null g l ms -> list_texts null g (Some v :: l) (m ++ ms).

  (** The getters GetArrayOf..., with what they say of a nil element. *)
  Inductive array_getter : asked -> list str -> Prop :=
  | ag_int k : k <> KInt -> k <> KUInt -> array_getter (QInt k) []
  | ag_flt k : array_getter (QFlt k) []
  | ag_str : array_getter QStr []
  | ag_bool : array_getter QBool []
  | ag_int_value k : k <> KInt -> k <> KUInt -> array_getter (QIntV k) [lit "array contained a null value"]
  | ag_flt_value k : array_getter (QFltV k) [lit "array contained a null value"]
  | ag_str_value : array_getter QStrV [lit "array contained a null value"]
  | ag_bool_value : array_getter QBoolV [lit "array contained nil value"].

  (** A map's getters GetArrayOf...: all elements of the array under the key. *)
  Inductive map_list_getter : asked -> list str -> list str -> Prop :=
  | mg_value k : map_list_getter (QFltV k) [lit "array contained a null value"] [lit "json.Map.GetArrayValue array is nil"]
  | mg_bool : map_list_getter QBoolV [lit "array contained nil value"] []
  | mg_pointer g : array_getter g [] -> map_list_getter g [] [].
  Inductive map_list_texts (w : world) (g : asked) (null nil : list str) (m : nat) (k : str) : list str -> Prop :=
  | ml_missing : SpecWorld.object_at w m k = None -> map_list_texts w g null nil m k nil
  | ml_nil i : SpecWorld.object_at w m k = Some i -> counts_as_nil i -> map_list_texts w g null nil m k nil
  | ml_array i a l ms :
      SpecWorld.object_at w m k = Some i -> ~ counts_as_nil i -> i = IArr a \/ i = IPArr (Some a) ->
      nth_error h a = Some (CArr l) -> list_texts null g l ms -> map_list_texts w g null nil m k ms
  | ml_other i :
      SpecWorld.object_at w m k = Some i -> ~ counts_as_nil i -> ~ is_array i ->
      map_list_texts w g null nil m k [unsupported (lit "Value.GetArray") i []].

  (** One element by index; [nil]: what is said if the answer is nil.  A nil element
      panics. *)
  Inductive element_texts (g : asked) (nil : list str) (l : list (option nat)) (n : Z) : list str -> Prop :=
  | el_neg : n < 0 -> element_texts g nil l n [lit "Array.GetStringValue index is less than 0"]
  | el_range : Z.of_nat (length l) <= n -> element_texts g nil l n [lit "Array.GetStringValue index is out of range"]
  | el_fine v i : 0 <= n -> nth_error l (Z.to_nat n) = Some (Some v) -> nth_error h v = Some (CVal i) ->
      texts g i [] -> ~ counts_as_nil i -> element_texts g nil l n []
  | el_nil v i : 0 <= n -> nth_error l (Z.to_nat n) = Some (Some v) -> nth_error h v = Some (CVal i) ->
      texts g i [] -> counts_as_nil i -> element_texts g nil l n nil
  | el_error v i m : 0 <= n -> nth_error l (Z.to_nat n) = Some (Some v) -> nth_error h v = Some (CVal i) ->
      texts g i [m] -> element_texts g nil l n [lit "Array.GetStringValue has errors: [" ++ m ++ lit "]"].

  (** Changing an array at an index. *)
  Definition index_texts (l : list (option nat)) (n : Z) (ms : list str) : Prop :=
    (n < 0 /\ ms = [lit "index must be non-zero"])
    \/ (Z.of_nat (length l) <= n /\ ms = [lit "index out of range"])
    \/ (0 <= n < Z.of_nat (length l) /\ ms = []).

  (** Removing a key. *)
  Definition remove_texts (d : dict (option nat)) (k : str) (ms : list str) : Prop :=
    (In k (dict_keys d) /\ ms = []) \/ (~ In k (dict_keys d) /\ ms = [lit "key not found in map"]).
End Texts.
