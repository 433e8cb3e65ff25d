(** * Specification: what a reader of RFC 8259 gets from the text of a document

    Independent of the model, except that [writes] is about ToJSONString. *)
From Coq Require Import Ascii String List NArith ZArith Bool.
From Verif Require Import GoStr GoNum GoFloat Heap Common ValueModel ArrayModel MapModel JsonModel SpecNum SpecFloat SpecUtf8 SpecDoc SpecToken SpecRender SpecJson SpecRfc.
Import ListNotations.

(** [b] is the string [t] as written, without the quotation marks around it. *)
Definition written (t b : str) : Prop := quote t = lit """" ++ b ++ lit """".

(** The value has the structure of the document: the same members and elements in the
    same order, every number and every string at its place as it was written. *)
Inductive keeps : doc -> jval -> Prop :=
| kp_null : keeps DNull VNull
| kp_bool b : keeps (DScal (SBool b)) (VBool b)
| kp_int k z s : integer_text z s -> keeps (DScal (SInt k z)) (VNumber s)
| kp_flt k neg m e s : fixed_text neg m e s -> keeps (DScal (SFlt k (FFin neg m e))) (VNumber s)
| kp_str t b : written t b -> keeps (DScal (SStr t)) (VString b)
| kp_err t b : written t b -> keeps (DErr t) (VString b)
| kp_texts l bs : Forall2 written l bs -> keeps (DTexts l) (VArray (map VString bs))
| kp_arr l vs : Forall2 keeps l vs -> keeps (DArr l) (VArray vs)
| kp_map l ms :
    Forall2 (fun kd kv => written (fst kd) (fst kv) /\ keeps (snd kd) (snd kv)) l ms -> keeps (DMap l) (VObject ms).

(** The value is the document: strings and keys decode to those of the document, numbers
    are equal to its integers and to its floats rounded to six decimal places. *)
Inductive conveys : doc -> jval -> Prop :=
| cv_null : conveys DNull VNull
| cv_bool b : conveys (DScal (SBool b)) (VBool b)
| cv_int k z i :
    json_int i -> decimal i = Z.abs z -> conveys (DScal (SInt k z)) (VNumber (sign (z <? 0)%Z ++ i))
| cv_flt k neg m e u n q z :
    fraction u n q -> nearest_integer (units m e * 10 ^ 6) (2 ^ 1074) z -> (n * 10 ^ 6 = z * q)%Z ->
    conveys (DScal (SFlt k (FFin neg m e))) (VNumber (sign neg ++ u))
| cv_str t b : decodes b t -> conveys (DScal (SStr t)) (VString b)
| cv_err t b : decodes b t -> conveys (DErr t) (VString b)
| cv_texts l bs : Forall2 (fun t b => decodes b t) l bs -> conveys (DTexts l) (VArray (map VString bs))
| cv_arr l vs : Forall2 conveys l vs -> conveys (DArr l) (VArray vs)
| cv_map l ms :
    Forall2 (fun kd kv => decodes (fst kv) (fst kd) /\ conveys (snd kd) (snd kv)) l ms -> conveys (DMap l) (VObject ms).

(** Documents whose floats are finite and whose strings and keys, as written, are strings
    of the grammar. *)
Inductive lawful : doc -> Prop :=
| lw_null : lawful DNull
| lw_bool b : lawful (DScal (SBool b))
| lw_int k z : lawful (DScal (SInt k z))
| lw_flt k neg m e : lawful (DScal (SFlt k (FFin neg m e)))
| lw_str t : json_string (quote t) -> lawful (DScal (SStr t))
| lw_err t : json_string (quote t) -> lawful (DErr t)
| lw_texts l : Forall (fun t => json_string (quote t)) l -> lawful (DTexts l)
| lw_arr l : Forall lawful l -> lawful (DArr l)
| lw_map l : Forall (fun kd => json_string (quote (fst kd)) /\ lawful (snd kd)) l -> lawful (DMap l).

(** ToJSONString of the map or array, given a builder holding [b], appends [s] and returns
    no errors. *)
Definition writes (X : ext) (h : heap) (i : iface) (b s : str) : Prop :=
  exists n, forall fuel, n <= fuel ->
    match i with
    | IMap m => map_ToJSONString fuel X h m (Some b)
    | IArr a => arr_ToJSONString fuel X h a (Some b)
    | _ => Panic
    end = Ok (Some (b ++ s), []).
