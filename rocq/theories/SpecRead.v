(** * Specification: what the getters of a value answer for a piece of text *)
From Coq Require Import Ascii String List NArith ZArith Bool.
From Verif Require Import GoStr GoNum GoFloat Heap Common ValueModel ArrayModel MapModel
  SpecDict SpecNum SpecFloat SpecDoc SpecText SpecToken.
Import ListNotations.
Local Open Scope Z_scope.

Definition bool_word (b : bool) : str := lit (if b then "true" else "false").

(** [u] is an integer literal denoting [z]. *)
Definition integer_literal (u : str) (z : Z) : Prop :=
  numeral u z \/ exists t, u = "-"%char :: t /\ numeral t (- z).

Section Answers.
  Context (X : ext) (h : heap) (v : nat).

  Definition as_string (s : str) : Prop :=
    value_GetString_content X h v = Ok (GVal (Some s)) /\ value_GetStringValue X h v = Ok (GVal s).
  Definition as_bool (b : bool) : Prop :=
    value_GetBool_content X h v = Ok (GVal (Some b)) /\ value_GetBoolValue X h v = Ok (GVal b).
  (** Every integer getter but GetUInt: the number if it fits, otherwise one error. *)
  Definition as_integer (z : Z) : Prop :=
    forall kd, kd <> KUInt ->
      (fits (x_is64 X) kd z ->
         value_GetIntKind kd X h v = Ok (GVal (Some z)) /\ value_GetIntKindValue kd X h v = Ok (GVal z))
      /\ (~ fits (x_is64 X) kd z ->
          exists e, value_GetIntKind kd X h v = Ok (GErr [e]) /\ value_GetIntKindValue kd X h v = Ok (GErr [e])).
  Definition as_float64 (f : flt) : Prop :=
    value_GetFloat64 X h v = Ok (GVal (Some f)) /\ value_GetFloat64Value X h v = Ok (GVal f).
  Definition as_map (m : nat) : Prop :=
    value_GetMap X h v = Ok (GVal (Some m)) /\ value_GetMapValue X h v = Ok (GVal m).
  Definition as_array (a : nat) : Prop :=
    value_GetArray X h v = Ok (GVal (Some a)) /\ value_GetArrayValue X h v = Ok (GVal a).
  (** Every pointer getter answers nil without errors, every value getter one error. *)
  Definition as_null : Prop :=
    (forall kd, kd <> KUInt -> value_GetIntKind kd X h v = Ok (GVal None)
                               /\ exists e, value_GetIntKindValue kd X h v = Ok (GErr [e]))
    /\ (value_GetFloat64 X h v = Ok (GVal None) /\ exists e, value_GetFloat64Value X h v = Ok (GErr [e]))
    /\ (value_GetFloat32 X h v = Ok (GVal None) /\ exists e, value_GetFloat32Value X h v = Ok (GErr [e]))
    /\ (value_GetBool_content X h v = Ok (GVal None) /\ exists e, value_GetBoolValue X h v = Ok (GErr [e]))
    /\ (value_GetString_content X h v = Ok (GVal None) /\ exists e, value_GetStringValue X h v = Ok (GErr [e]))
    /\ (value_GetMap X h v = Ok (GVal None) /\ exists e, value_GetMapValue X h v = Ok (GErr [e]))
    /\ (value_GetArray X h v = Ok (GVal None) /\ exists e, value_GetArrayValue X h v = Ok (GErr [e])).
  Definition no_map : Prop :=
    exists e, value_GetMap X h v = Ok (GErr [e]) /\ value_GetMapValue X h v = Ok (GErr [e]).
  Definition no_array : Prop :=
    exists e, value_GetArray X h v = Ok (GErr [e]) /\ value_GetArrayValue X h v = Ok (GErr [e]).
  Definition no_integer : Prop :=
    forall kd, kd <> KUInt ->
      exists e, value_GetIntKind kd X h v = Ok (GErr [e]) /\ value_GetIntKindValue kd X h v = Ok (GErr [e]).
  Definition no_bool : Prop :=
    exists e, value_GetBool_content X h v = Ok (GErr [e]) /\ value_GetBoolValue X h v = Ok (GErr [e]).

  (** The value [v] answers its getters as the text [t] demands. *)
  Definition answers (t : jtext) : Prop :=
    match t with
    | JStr b => as_string (unescape (latin1 b)) /\ no_map /\ no_array
    | JArr l => (exists a, as_array a /\ arr_Len h a = Ok (Z.of_nat (length (elem_list l))))
                /\ no_map /\ no_integer /\ no_bool
    | JMap l => (exists m, as_map m /\ map_GetKeys h m = Ok (first_keys (map fst (member_list l))))
                /\ no_array /\ no_integer /\ no_bool
    | JTok u =>
        (forall b, squeeze u = bool_word b -> as_bool b /\ no_map /\ no_array /\ no_integer)
        /\ (squeeze u = lit "null" -> as_null)
        /\ (forall z, integer_literal (squeeze u) z ->
              as_integer z /\ no_map /\ no_array /\ no_bool
              /\ exists f, rounds_to F64 (z <? 0) (Z.abs z) 1 (Some f) /\ as_float64 f)
        /\ (forall neg w n q, squeeze u = sign neg ++ w -> fraction w n q ->
              no_map /\ no_array /\ no_integer /\ no_bool
              /\ exists m e m' e', as_float64 (FFin neg m' e') /\ units m' e' = units m e
                   /\ (rounds_to F32 neg n q (Some (FFin neg m e))
                       \/ rounds_to F32 neg n q None /\ rounds_to F64 neg n q (Some (FFin neg m e))))
    end.
End Answers.
