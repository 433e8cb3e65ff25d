(** * Programs that read the texts of errors

    A program of ClientModel.v also sees the texts of the errors of each of its calls. *)
From Coq Require Import Ascii String List NArith ZArith Bool.
From Verif Require Import GoStr GoNum GoFloat Heap Common ValueModel ArrayModel MapModel JsonModel ParserModel GetterModel NamedModel
  RunesModel TimeModel SpecWorld World MessageModel SaysModel ToldModel ClientModel.
Import ListNotations.

(** ** The getters of ClientModel.v among those of SaysModel.v *)
Definition asked_of (t : stype) : asked :=
  match t with TyStr => SaysModel.QStr | TyBool => QBool | TyInt k => QInt k | TyFlt k => QFlt k end.
Definition asked_of_getter (g : getter) : option asked :=
  match g with
  | GInt k => Some (QInt k) | GIntV k => Some (QIntV k)
  | GFloat32 => Some (QFlt F32) | GFloat32V => Some (QFltV F32)
  | GFloat64 => Some (QFlt F64) | GFloat64V => Some (QFltV F64)
  | GString => Some QStr | GStringV => Some QStrV | GBool => Some QBool
  | GMap => Some SaysModel.QMap | GMapV => Some QMapV | GArray => Some QArr | GArrayV => Some QArrV
  | GErrors => Some QErrs | GFunc => Some QFunc
  | GHasKey | GIsNull | GValue | GObject | GType | GIs _ | GIsBoolVal _ | GIsEmptyString => None
  end.
Definition asked_of_vgetter (g : vgetter) : option asked :=
  match g with
  | VInt k => Some (QInt k) | VIntV k => Some (QIntV k)
  | VFloat32 => Some (QFlt F32) | VFloat32V => Some (QFltV F32)
  | VFloat64 => Some (QFlt F64) | VFloat64V => Some (QFltV F64)
  | VString => Some QStr | VStringV => Some QStrV | VBool => Some QBool | VBoolV => Some QBoolV
  | VMap => Some SaysModel.QMap | VMapV => Some QMapV | VArray => Some QArr | VArrayV => Some QArrV
  | VErrors => Some QErrs | VFunc => Some QFunc
  | VObject | VType | VIsNil | VIs _ | VIsBoolVal _ | VIsEmptyString => None
  end.
Definition asked_of_lgetter (g : lgetter) : asked :=
  match g with LInt k => QIntV k | LFloat32 => QFltV F32 | LFloat64 => QFltV F64 | LBool => QBoolV | LString => QStrV end.
Definition asked_of_mgetter (g : mgetter) : asked :=
  match g with MFloat32 => QFltV F32 | MFloat64 => QFltV F64 | MBool => QBoolV end.

Section Texts.
  (** [Q]: strconv.Quote.  [E]: the messages of common.EscapeString.  [T]: those of
      common.GetTime and common.GetTimeWithDecimalPlaces. *)
  Context (Q E : str -> str) (T : option Z -> time_arg -> list str) (X : ext) (L : timelib).

  (** Value.go:1357-1379: the messages of the library. *)
  Definition time_says (p : option Z) (h : heap) (i : iface) : res (list str) :=
    a <-r time_arg_of h i ;;
    r <-r time_reader L p a ;;
    Ok (match r with GVal _ => [] | GErr _ => T p a end).
  Definition value_time_says (p : option Z) (h : heap) (v : loc) : res (list str) :=
    i <-r rd_val h v ;; if iface_IsNil X i then Ok [] else time_says p h i.
  Definition value_timev_says (h : heap) (v : loc) : res (list str) :=
    i <-r rd_val h v ;; time_says None h i.

  Definition says_if (f : asked -> res (list str)) (o : option asked) : res (list str) :=
    match o with Some g => f g | None => Ok [] end.

  (** The texts of the errors of a call, in order; none for a call that returns no errors.
      ConvertInterfaceValueToJSONStringValue is called with a builder. *)
  Definition texts_of (q : request) (h : heap) : res (list str) :=
    match q with
    | QApi (AMapRemoveKey m k) => remove_key_says h m k
    | QApi (AArrSetValueAtIndex a n _) | QApi (AArrRemoveValueAtIndex a n) => at_index_says h a n
    | QApi _ => Ok []
    | QMap g m k => says_if (fun g => map_says Q X h g m k) (asked_of_getter g)
    | QVal g v => says_if (fun g => value_says Q X h g v) (asked_of_vgetter g)
    | QMapPtr t m k => map_says Q X h (asked_of t) m k
    | QValPtr t v => value_says Q X h (asked_of t) v
    | QArrPtrs t a => array_of_says Q X h (asked_of t) a
    | QMapPtrs t m k => map_list_says Q X h (asked_of t) m k
    | QArrVals g a => array_of_says Q X h (asked_of_lgetter g) a
    | QMapVals g m k => map_list_says Q X h (asked_of_mgetter g) m k
    | QValRunes v => value_says Q X h SaysModel.QRunes v
    | QMapRunes m k => map_says Q X h SaysModel.QRunes m k
    | QElemStr a n => arr_string_says X h a n
    | QElemMap a n => arr_map_says X h a n
    | QEqual _ _ | QMapIsNil _ | QValues _ | QArrayOf _ | QMapOf _ => Ok []
    | QToString i => convert_string_says X h i
    | QMapText n m b => map_ToJSONString_says E X n h m match b with Some _ => true | None => false end
    | QArrText n a b => arr_ToJSONString_says E X n h a match b with Some _ => true | None => false end
    | QText n i => convert_json_says E X n h i true
    | QClone n k l => clone_says X n h k l
    | QParse s => r <-r Parse_says X s h ;; Ok (snd (fst r))
    | QTime p v => value_time_says p h v
    | QTimeV v => value_timev_says h v
    | QMapTime p m k => map_via [] (value_time_says p h) h m k
    end.

  (** A call with the texts of its errors. *)
  Definition ask_texts (q : request) : M (reply * list str) :=
    fun h => r <-r ask X L q h ;; ms <-r texts_of q h ;; Ok ((fst r, ms), snd r).

  (** As [play], ClientModel.v. *)
  Definition heard := list (res (fact * list nat * list str)).
  Definition listener := heard -> option request.
  Fixpoint listen (n : nat) (c : listener) (s : heard) (t : list nat) (h : heap) : heard * heap :=
    match n with
    | O => (s, h)
    | S n' =>
        match c s with
        | None => (s, h)
        | Some q =>
            if forallb (fun i => Nat.ltb i (length t)) (request_handles q) then
              match ask_texts (rename (fun i => nth i t 0) q) h with
              | Ok (r, ms, h') =>
                  let t' := t ++ snd r in
                  listen n' c (s ++ [Ok (fst r, map (fun x => place x t') (snd r), ms)]) t' h'
              | Panic => (s ++ [Panic], h)
              | Stuck => (s ++ [Stuck], h)
              | NoFuel => (s ++ [NoFuel], h)
              end
            else (s, h)
        end
    end.
End Texts.

(** The number of errors in what a call returns. *)
Definition errors {A} (r : gres A) : nat := match r with GVal _ => 0 | GErr e => length e end.
Definition answer_errors (a : answer) : nat :=
  match a with
  | AnsBool _ | AnsLoc _ | AnsObj _ | AnsType _ => 0
  | AnsIntP r => errors r | AnsInt r => errors r | AnsFltP r => errors r | AnsFlt r => errors r
  | AnsStrP r => errors r | AnsStr r => errors r | AnsBoolP r => errors r | AnsBoolV r => errors r
  | AnsLocP r => errors r | AnsLocV r => errors r | AnsErrs r => errors r | AnsFunc r => errors r
  end.
Definition errors_in (f : fact) : nat :=
  match f with
  | FOut (OFlag _ true) => 1
  | FOut _ | FBool _ => 0
  | FAns a => answer_errors a
  | FPtr r => errors r
  | FList (LAInt r) => errors r | FList (LAFlt r) => errors r | FList (LABool r) => errors r | FList (LAStr r) => errors r
  | FMapList (MAFlt r) => errors r | FMapList (MABool r) => errors r
  | FRunes r => errors r | FPtrs r => errors r | FMapPtrs r => errors r
  | FText r => length (snd r) | FWords r => length (snd r) | FString r => errors r | FLoc r => errors r
  | FTime r => errors r | FTimeV r => errors r
  end.
