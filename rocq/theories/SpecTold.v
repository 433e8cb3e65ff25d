(** * Specification: the texts of the errors of ToJSONString, of the conversions and of
      Clone *)
From Coq Require Import Ascii String List NArith ZArith Bool.
From Verif Require Import GoStr GoNum GoFloat Heap Common SpecDict SpecNum SpecWorld SpecDoc SpecRender SpecClone SpecWrite SpecConvert
  SaysModel SpecSays.
Import ListNotations.

(** The type is not supported by a method. *)
Definition unsupported_type (method type : str) : str :=
  lit "error: " ++ method ++ lit ": type " ++ type ++ lit " is not supported please implement".

Section Told.
  Context (X : ext).

  (** ** ToJSONString *)

  (** The type names of the errors in a list that have no text. *)
  Definition unknown_errors (l : list goerr) : list str :=
    flat_map (fun e => match e with
                       | Typed n _ => if existsb (str_eqb n) written_as_error then [] else [n]
                       | _ => []
                       end) l.
  Definition not_written (type : str) : str := unsupported_type (lit "JSON.ConvertInterfaceValueToJSONStringValue") type.

  (** [complains k ms]: the messages about the values in [k] that have no text, in the
      order in which they would have been written. *)
  Inductive complains : content -> list str -> Prop :=
  | co_none : complains HNone []
  | co_leaf i t : writes_leaf X i t -> complains (HLeaf i) []
  | co_no_text i : no_text X i -> complains (HLeaf i) [not_written (go_type X i)]
  | co_errors l i : i = IErrs l \/ i = IPErrs (Some l) -> complains (HLeaf i) (map not_written (unknown_errors l))
  | co_var s : complains (HVar s) []
  | co_elems l ms : complains_all l ms -> complains (HArr l) ms
  | co_members es ms : complains_all (map snd es) ms -> complains (HMap es) ms
  with complains_all : list content -> list str -> Prop :=
  | ca_nil : complains_all [] []
  | ca_cons k m l ms : complains k m -> complains_all l ms -> complains_all (k :: l) (m ++ ms).

  (** ** Clone *)

  (** A leaf that is rejected; [who] is the type whose Clone finds it.  Lists are arrays
      if the environment says so, and then no json.Array is found in them. *)
  Definition refusal (who : str) (i : iface) (e : err) : str :=
    match e, i with
    | ECloneNil, IPMap None => who ++ lit ".Clone map is nil"
    | ECloneNil, _ => who ++ lit ".Clone array is nil"
    | EType, _ => unsupported_type (lit "Value.GetArray") (go_type X i)
    | _, _ => unsupported_type (lit "Value.Clone") (go_type X i)
    end.
  (** Array.Clone looks at what its elements hold; Map.Clone leaves nil pointers to
      Value.Clone. *)
  Fixpoint refusals (who : str) (k : content) : list str :=
    match k with
    | HLeaf i => match fate_of X i with Rejected e => [refusal who i e] | _ => [] end
    | HArr l => flat_map (refusals (lit "Array")) l
    | HMap l => flat_map (fun xk => refusals (lit "Value") (snd xk)) l
    | _ => []
    end.
End Told.
