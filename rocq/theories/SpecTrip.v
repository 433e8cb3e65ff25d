(** * Specification: a value read after writing and reading back *)
From Coq Require Import Ascii String List NArith ZArith Bool.
From Verif Require Import GoStr GoNum GoFloat Heap Common ValueModel ArrayModel MapModel
  SpecDict SpecNum SpecFloat SpecWorld Reach SpecDoc SpecToken SpecRender SpecRead.
Import ListNotations.
Local Open Scope Z_scope.

(** The second answer is the first; errors may differ, but not whether there are any. *)
Definition agree {A} (r r' : res (gres A)) : Prop :=
  match r with
  | Ok (GVal a) => r' = Ok (GVal a)
  | Ok (GErr _) => exists e, r' = Ok (GErr e)
  | Panic => r' = Panic
  | _ => False
  end.

(** The same of getters of containers, which are [alike]. *)
Definition agree_on {A B} (alike : A -> B -> Prop) (r : res (gres A)) (r' : res (gres B)) : Prop :=
  match r with
  | Ok (GVal a) => exists b, r' = Ok (GVal b) /\ alike a b
  | Ok (GErr _) => exists e, r' = Ok (GErr e)
  | Panic => r' = Panic
  | _ => False
  end.
Definition on_option {A B} (alike : A -> B -> Prop) (o : option A) (o' : option B) : Prop :=
  match o, o' with
  | None, None => True
  | Some a, Some b => alike a b
  | _, _ => False
  end.

(** The float read back: the float32 nearest to the six-digit decimal of the float, or
    the float64 where that overflows. *)
Definition six_digits (f f' : flt) : Prop :=
  exists neg m e m' e' z k a b,
    f = FFin neg m e /\ f' = FFin neg m' e' /\ nearest_integer (units m e * 10 ^ 6) (2 ^ 1074) z
    /\ rounds_to k neg z (10 ^ 6) (Some (FFin neg a b)) /\ units m' e' = units a b
    /\ (k = F32 \/ rounds_to F32 neg z (10 ^ 6) None).

Section Trip.
  Context (X : ext) (h : heap) (v : nat) (h' : heap) (v' : nat).

  Definition same_keys (m m' : nat) : Prop := map_GetKeys h' m' = map_GetKeys h m.
  Definition same_length (a a' : nat) : Prop := arr_Len h' a' = arr_Len h a.

  (** The value [v], which holds [i] in [h], reads the same as [v'] in [h']; an error
      reads as its message and a list of errors or strings as an array. *)
  Definition reads_back (i : iface) : Prop :=
    match i with
    | IErr t | IPErr (Some (Plain t)) | IPErr (Some (Typed _ t)) => as_string X h' v' t
    | IErrs l | IPErrs (Some l) =>
        exists a, as_array X h' v' a /\ arr_Len h' a = Ok (Z.of_nat (length l))
    | IStrs l | IPStrs (Some l) =>
        exists a, as_array X h' v' a /\ arr_Len h' a = Ok (Z.of_nat (length l))
    | _ =>
        ((forall z, scalar_of (view h) i = Some (SInt KUInt z) -> z < 2 ^ 63) ->
           forall kd, agree (value_GetIntKind kd X h v) (value_GetIntKind kd X h' v')
             /\ agree (value_GetIntKindValue kd X h v) (value_GetIntKindValue kd X h' v'))
        /\ ((forall k f, scalar_of (view h) i <> Some (SFlt k f)) ->
              agree (value_GetFloat64 X h v) (value_GetFloat64 X h' v')
              /\ agree (value_GetFloat64Value X h v) (value_GetFloat64Value X h' v'))
        /\ (forall k f, scalar_of (view h) i = Some (SFlt k f) ->
              agree_on (on_option six_digits) (value_GetFloat64 X h v) (value_GetFloat64 X h' v')
              /\ agree_on six_digits (value_GetFloat64Value X h v) (value_GetFloat64Value X h' v'))
        /\ agree (value_GetString_content X h v) (value_GetString_content X h' v')
        /\ agree (value_GetStringValue X h v) (value_GetStringValue X h' v')
        /\ agree (value_GetBool_content X h v) (value_GetBool_content X h' v')
        /\ agree (value_GetBoolValue X h v) (value_GetBoolValue X h' v')
        /\ agree_on (on_option same_keys) (value_GetMap X h v) (value_GetMap X h' v')
        /\ agree_on same_keys (value_GetMapValue X h v) (value_GetMapValue X h' v')
        /\ agree_on (on_option same_length) (value_GetArray X h v) (value_GetArray X h' v')
        /\ agree_on same_length (value_GetArrayValue X h v) (value_GetArrayValue X h' v')
    end.
End Trip.
