(** * Specification: what a call does to documents *)
From Coq Require Import Ascii String List NArith ZArith Bool.
From Verif Require Import GoStr GoNum GoFloat Heap SpecDict SpecWorld SpecDoc SpecClone.
Import ListNotations.

(** The map, array, value or variable [x] stands for the document [d]. *)
Inductive stands_for (tn : nils) (w : world) (x : nat) : doc -> Prop :=
| sf_map d : rep_obj tn w (fun _ => True) (IMap x) d -> stands_for tn w x d
| sf_arr d : rep_obj tn w (fun _ => True) (IArr x) d -> stands_for tn w x d
| sf_val d : rep_value tn w (fun _ => True) (Some x) d -> stands_for tn w x d
| sf_var s : w_var w x = Some s -> stands_for tn w x (DScal s).

(** The argument that the call [c] stores stands for [e], and is not, and does not
    contain, the changed object [x]. *)
Definition stored (tn : nils) (w : world) (x : nat) (c : api) (e : doc) : Prop :=
  match c with
  | AMapSet _ _ i | AArrAppend _ i | AValSetObject _ i => rep_obj tn w (fun l => l <> x) i e
  | AMapSetValue _ _ o | AArrAppendValue _ o | AArrSetValueAtIndex _ _ o => rep_value tn w (fun l => l <> x) o e
  | AMapSetScalarValue _ _ s | AVarSet _ s => e = DScal s
  | _ => True
  end.

(** The document of the changed object after the call. *)
Definition edited (c : api) (e d : doc) : doc :=
  match c, d with
  | AMapSet _ k _, DMap es | AMapSetValue _ k _, DMap es | AMapSetScalarValue _ k _, DMap es => DMap (dict_set es k e)
  | AMapRemoveKey _ k, DMap es => DMap (dict_remove es k)
  | AArrAppend _ _, DArr l | AArrAppendValue _ _, DArr l => DArr (l ++ [e])
  | AArrSetValueAtIndex _ n _, DArr l => if valid_index l n then DArr (list_set l (Z.to_nat n) e) else d
  | AArrRemoveValueAtIndex _ n, DArr l => if valid_index l n then DArr (list_remove l (Z.to_nat n)) else d
  | AValSetObject _ _, _ | AVarSet _ _, _ => e
  | _, _ => d
  end.

(** A document with holes. *)
Inductive template :=
| THole
| TDoc (d : doc)
| TArr (l : list template)
| TMap (l : list (str * template)).

Fixpoint fill (t : template) (e : doc) : doc :=
  match t with
  | THole => e
  | TDoc d => d
  | TArr l => DArr (map (fun t => fill t e) l)
  | TMap l => DMap (map (fun kt => (fst kt, fill (snd kt) e)) l)
  end.

Inductive hole_at : template -> list pos -> Prop :=
| ha_here : hole_at THole []
| ha_index l n t p : nth_error l n = Some t -> hole_at t p -> hole_at (TArr l) (PIndex n :: p)
| ha_key l k t p : dict_get l k = Some t -> hole_at t p -> hole_at (TMap l) (PKey k :: p).

(** [x] is found from the container [c] by the path [p]. *)
Definition occurs (w : world) (c : nat) (p : list pos) (x : nat) : Prop :=
  SpecDoc.object_at w c p x \/ value_at w c p x.
