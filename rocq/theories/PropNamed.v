(** * C56: methods do what their names say *)
From Coq Require Import Ascii String List NArith ZArith Bool.
From Verif Require Import GoStr GoNum GoFloat Heap Common ValueModel ArrayModel MapModel GetterModel NamedModel MethodTable NamedFacts
  SpecDict SpecWorld SpecNum SpecNamed Inv World Reach ExampleState.
Import ListNotations.
Local Open Scope string_scope.

(** On a map: the method SetT takes a *T and SetTValue a T; after either, the methods
    GetT and GetTValue (C41: there is no GetBoolValue) at the same key give the value,
    IsU is true for U = T only, and all methods answer as before elsewhere. *)
Theorem c56_map : forall X h m k s i name,
  reachable X h -> has (w_map (view h)) m -> plain (x_is64 X) s ->
  (i = IScal s /\ name = "Set" ++ type_name (stype_of s) ++ "Value"
   \/ exists p, i = IPtr (stype_of s) (Some p) /\ w_var (view h) p = Some s /\ name = "Set" ++ type_name (stype_of s)) ->
  exists e h', method map_setters name = Some e /\ st_type e = Some (static_type i)
    /\ run_call (map_set_call e m k i) h = Ok (ODone, h') /\ reachable X h'
    /\ map_get ("Get" ++ type_name (stype_of s)) X h' m k = Ok (answer_of s)
    /\ (stype_of s <> TyBool -> map_get ("Get" ++ type_name (stype_of s) ++ "Value") X h' m k = Ok (value_answer_of s))
    /\ (forall t, exists b, map_get ("Is" ++ type_name t) X h' m k = Ok (AnsBool b) /\ (b = true <-> t = stype_of s))
    /\ forall name2 m2 k2, has (w_map (view h)) m2 -> (m2, k2) <> (m, k) ->
         map_get name2 X h' m2 k2 = map_get name2 X h m2 k2.
Proof. exact named_map. Qed.

(** On a value. *)
Theorem c56_value : forall X h v s i name,
  reachable X h -> has (w_val (view h)) v -> plain (x_is64 X) s ->
  (i = IScal s /\ name = "Set" ++ type_name (stype_of s) ++ "Value"
   \/ exists p, i = IPtr (stype_of s) (Some p) /\ w_var (view h) p = Some s /\ name = "Set" ++ type_name (stype_of s)) ->
  exists e h', method value_setters name = Some e /\ st_type e = Some (static_type i)
    /\ run_call (value_set_call e v i) h = Ok (ODone, h') /\ reachable X h'
    /\ value_get ("Get" ++ type_name (stype_of s)) X h' v = Ok (answer_of s)
    /\ value_get ("Get" ++ type_name (stype_of s) ++ "Value") X h' v = Ok (value_answer_of s)
    /\ forall t, exists b, value_get ("Is" ++ type_name t) X h' v = Ok (AnsBool b) /\ (b = true <-> t = stype_of s).
Proof. exact named_value. Qed.

(** On an array: AppendT and AppendTValue add one value at the end that reads as [s]. *)
Theorem c56_array : forall X h a l s i name,
  reachable X h -> w_arr (view h) a = Some l -> plain (x_is64 X) s ->
  (i = IScal s /\ name = "Append" ++ type_name (stype_of s) ++ "Value"
   \/ exists p, i = IPtr (stype_of s) (Some p) /\ w_var (view h) p = Some s /\ name = "Append" ++ type_name (stype_of s)) ->
  exists e h' v, method array_appenders name = Some e /\ st_type e = Some (static_type i)
    /\ run_call (array_append_call e a i) h = Ok (ODone, h') /\ reachable X h'
    /\ w_arr (view h') a = Some (l ++ [Some v])%list
    /\ value_get ("Get" ++ type_name (stype_of s)) X h' v = Ok (answer_of s)
    /\ value_get ("Get" ++ type_name (stype_of s) ++ "Value") X h' v = Ok (value_answer_of s)
    /\ forall t, exists b, value_get ("Is" ++ type_name t) X h' v = Ok (AnsBool b) /\ (b = true <-> t = stype_of s).
Proof. exact named_array. Qed.

(** The named methods are assigned ones, at the same lines, and besides the listed ones
    there are no others. *)
Theorem c56_tables : forall X,
  ((forall e, In e map_set -> In e (map fst map_setters) \/ In e (map fst (map_getters X))
      \/ String.prefix "GetArrayOf" (fst e) = true
      \/ In (fst e) ["IsNil"; "ToJSONString"; "GetKeys"; "GetRunes"; "RemoveKey"; "GetTime"; "GetTimeWithDecimalPlaces";
                     "Values"; "Clone"; "SetValue"])
   /\ forall e, In e (map fst map_setters) \/ In e (map fst (map_getters X)) -> In e map_set)
  /\ ((forall e, In e array_set -> In e (map fst array_appenders) \/ In e []
      \/ String.prefix "GetArrayOf" (fst e) = true
      \/ In (fst e) ["Clone"; "Len"; "SetValueAtIndex"; "RemoveValueAtIndex"; "ToJSONString"; "AppendValue";
                     "AppendValueValue"; "GetValues"; "GetStringValue"; "GetMap"])
   /\ forall e, In e (map fst array_appenders) \/ In e [] -> In e array_set)
  /\ ((forall e, In e value_set -> In e (map fst value_setters) \/ In e (map fst (value_getters X))
      \/ String.prefix "GetArrayOf" (fst e) = true
      \/ In (fst e) ["IsValueEqualToString"; "IsValueEqualToStringValue"; "GetRunes"; "GetTimeWithDecimalPlaces";
                     "GetTime"; "GetTimeValue"; "Clone"])
   /\ forall e, In e (map fst value_setters) \/ In e (map fst (value_getters X)) -> In e value_set).
Proof. exact named_tables. Qed.

(** The hypotheses hold of a concrete state. *)
Example c56_ex :
  reachable std_ext ex_state /\ has (w_map (view ex_state)) 1
  /\ w_var (view ex_state) 2 = Some (SInt KUInt8 200) /\ plain true (SInt KUInt8 200) /\ plain true (SStr (lit "q"))
  /\ "Set" ++ type_name (TyInt KUInt8) = "SetUInt8" /\ "Append" ++ type_name TyStr ++ "Value" = "AppendStringValue".
Proof.
  split; [apply ex_reachable|]. split; [eexists; vm_compute; reflexivity|]. split; [vm_compute; reflexivity|].
  split; [|repeat split]. right. split; [unfold is_signed; intuition discriminate|]. cbn. split; discriminate.
Qed.

Example c56_value_ex :
  has (w_val (view ex_state)) 4 /\ w_arr (view ex_state) 9 = Some [Some 10; Some 11]%nat
  /\ plain true (SInt KInt64 (-5)) /\ "Set" ++ type_name (TyInt KInt64) ++ "Value" = "SetInt64Value".
Proof.
  split; [eexists; vm_compute; reflexivity|]. split; [vm_compute; reflexivity|].
  split; [|reflexivity]. left. split; [unfold is_signed; auto|]. cbn. split; discriminate.
Qed.

Print Assumptions c56_map.
Print Assumptions c56_value.
Print Assumptions c56_array.
Print Assumptions c56_tables.
