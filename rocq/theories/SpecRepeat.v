(** * Specification: two values that read exactly the same *)
From Coq Require Import Ascii String List NArith ZArith Bool.
From Verif Require Import GoStr GoNum GoFloat Heap Common ValueModel ArrayModel MapModel SpecTrip.
Import ListNotations.

Section Same.
  Context (X : ext) (h : heap) (v : nat) (h' : heap) (v' : nat).

  Definition reads_same : Prop :=
    (forall kd, value_GetIntKind kd X h' v' = value_GetIntKind kd X h v
                /\ value_GetIntKindValue kd X h' v' = value_GetIntKindValue kd X h v)
    /\ value_GetFloat64 X h' v' = value_GetFloat64 X h v
    /\ value_GetFloat64Value X h' v' = value_GetFloat64Value X h v
    /\ value_GetFloat32 X h' v' = value_GetFloat32 X h v
    /\ value_GetFloat32Value X h' v' = value_GetFloat32Value X h v
    /\ value_GetString_content X h' v' = value_GetString_content X h v
    /\ value_GetStringValue X h' v' = value_GetStringValue X h v
    /\ value_GetBool_content X h' v' = value_GetBool_content X h v
    /\ value_GetBoolValue X h' v' = value_GetBoolValue X h v
    /\ value_IsNil X h' v' = value_IsNil X h v
    /\ agree_on (on_option (same_keys h h')) (value_GetMap X h v) (value_GetMap X h' v')
    /\ agree_on (same_keys h h') (value_GetMapValue X h v) (value_GetMapValue X h' v')
    /\ agree_on (on_option (same_length h h')) (value_GetArray X h v) (value_GetArray X h' v')
    /\ agree_on (same_length h h') (value_GetArrayValue X h v) (value_GetArrayValue X h' v').
End Same.

(** Nil, a scalar, a pointer to a scalar, a map or an array. *)
Definition ordinary (i : iface) : Prop :=
  match i with
  | INil | IScal _ | IPtr _ _ | IMap _ | IPMap _ | IArr _ | IPArr _ => True
  | _ => False
  end.
