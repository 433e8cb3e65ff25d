(** * Specification: results of Parse *)
From Coq Require Import Ascii String List NArith ZArith Bool.
From Verif Require Import GoStr GoNum GoFloat Heap Common ValueModel ArrayModel MapModel JsonModel ParserModel
  SpecDict SpecWorld Inv World Reach SpecNum SpecFloat SpecDoc SpecText SpecToken.
Import ListNotations.

(** Identities that do not exist in [h], and those that do. *)
Definition new_in (h : heap) : nat -> Prop := fun l => (length h <= l)%nat.
Definition old_in (h : heap) : nat -> Prop := fun l => (l < length h)%nat.

(** Every map, array, value and variable of [h] is unchanged in [h']. *)
Definition unchanged (h h' : heap) : Prop :=
  forall l, old_in h l ->
    w_map (view h') l = w_map (view h) l /\ w_arr (view h') l = w_arr (view h) l
    /\ w_val (view h') l = w_val (view h) l /\ w_var (view h') l = w_var (view h) l.

(** In the state [h], Parse of [s] returns a map representing the document [d],
    made of new objects only and free of sharing, or the errors [e]; nothing that
    existed changes. *)
Definition parses (X : ext) (h : heap) (s : str) (r : gres doc) : Prop :=
  match r with
  | GVal d => exists h' m, Parse X s h = Ok (GVal (Some m), h')
      /\ reachable X h' /\ unchanged h h' /\ rep_obj NoNils (view h') (new_in h) (IMap m) d
      /\ no_sharing (view h') m
  | GErr e => e <> [] /\ exists h', Parse X s h = Ok (GErr e, h') /\ reachable X h' /\ unchanged h h'
  end.

(** The bytes outside quoted text, and whether the text ends inside a quotation.  A
    double quote preceded by a backslash does not count as a quote. *)
Fixpoint outside (prev : option ascii) (inq : bool) (s : str) : str * bool :=
  match s with
  | [] => ([], inq)
  | b :: t =>
      if Ascii.eqb b c_dq && match prev with Some p => negb (Ascii.eqb p c_bs) | None => true end
      then outside (Some b) (negb inq) t
      else let (o, q) := outside (Some b) inq t in (if inq then o else b :: o, q)
  end.

(** Two texts that differ only in blanks between tokens. *)
Inductive same_text : jtext -> jtext -> Prop :=
| st_tok t : same_text (JTok t) (JTok t)
| st_str b : same_text (JStr b) (JStr b)
| st_arr l l' : same_elems l l' -> same_text (JArr l) (JArr l')
| st_map l l' : same_members l l' -> same_text (JMap l) (JMap l')
with same_elems : jelems -> jelems -> Prop :=
| se_nil b b' : same_elems (ENil b) (ENil b')
| se_cons pre pre' v v' post post' c r r' :
    same_text v v' -> same_elems r r' -> same_elems (ECons pre v post c r) (ECons pre' v' post' c r')
with same_members : jmembers -> jmembers -> Prop :=
| sm_nil b b' : same_members (MNil b) (MNil b')
| sm_cons pre pre' k mid mid' pre2 pre2' v v' post post' c r r' :
    same_text v v' -> same_members r r' ->
    same_members (MCons pre k mid pre2 v post c r) (MCons pre' k mid' pre2' v' post' c r').

(** The errors of the unquoted scalars of a text, in text order. *)
Definition tok_errs (r : tokres) : list err := match r with TokErr e => e | _ => [] end.
Definition scalar_errs (T : str -> tokres) (l : jmembers) : list err :=
  flat_map (fun t => tok_errs (T t)) (tokens_members l).

(** Documents that can come from a text: integers in the narrowest type (the zero of
    a literal with a minus sign is signed), finite floats, float64 only for numbers
    that overflow float32, strings and keys that are UTF-8 encodings of code points
    below 256, distinct keys. *)
Inductive typed : doc -> Prop :=
| ty_null : typed DNull
| ty_bool b : typed (DScal (SBool b))
| ty_nat k z : narrowest unsigned_types z k -> typed (DScal (SInt k z))
| ty_neg k z : (z <= 0)%Z -> narrowest signed_types z k -> typed (DScal (SInt k z))
| ty_f32 neg m e : normal_form F32 m e -> typed (DScal (SFlt F32 (FFin neg m e)))
| ty_f64 neg m e :
    normal_form F64 m e -> overflows F32 (units m e) (2 ^ 1074) -> typed (DScal (SFlt F64 (FFin neg m e)))
| ty_str b : typed (DScal (SStr (latin1 b)))
| ty_arr l : Forall typed l -> typed (DArr l)
| ty_map l :
    NoDup (map fst l) -> Forall (fun kd => (exists b, fst kd = latin1 b) /\ typed (snd kd)) l -> typed (DMap l).
