(** * The program state of /repo/json

    [Value], [Map] and [Array] (Value.go:13-128, Map.go:10-160, Array.go:9-82)
    are structs of closures that share private variables created by the
    constructors.  Copying such a struct copies the closures, so a copy and the
    original share their state, and [json.Map] and [*json.Map] differ only in the
    dynamic type recorded in an interface value.  The private variables are
    therefore modelled as heap cells and every handle, by value or by pointer,
    as the location of the cell. *)
From Coq Require Import Ascii String List NArith ZArith Bool.
From Verif Require Import GoStr GoNum GoFloat.
Import ListNotations.

(** Scalar types a Value supports. *)
Inductive stype := TyStr | TyBool | TyInt (k : ikind) | TyFlt (k : fkind).

Inductive scalar :=
| SStr (s : str) | SBool (b : bool) | SInt (k : ikind) (z : Z) | SFlt (k : fkind) (f : flt).

Definition stype_of (s : scalar) : stype :=
  match s with
  | SStr _ => TyStr | SBool _ => TyBool | SInt k _ => TyInt k | SFlt k _ => TyFlt k
  end.

Notation loc := nat (only parsing).

(** A Go error: nil, one built by errors.New or by fmt.Errorf without %w (its dynamic
    type is *errors.errorString), or any other non-nil one, by the name of its dynamic
    type and its message, the result of Error().  Simplification: an error that is a nil
    pointer of some type is not modelled. *)
Inductive goerr := NoError | Plain (s : str) | Typed (name s : str).

(** Go values of type [interface{}] that reach the library.  A pointer is
    [None] when it is a typed nil. *)
Inductive iface :=
| INil                                  (* nil interface *)
| IScal (s : scalar)                    (* string, bool, intN, uintN, floatN *)
| IPtr (t : stype) (p : option loc)     (* *string, *bool, *intN, ... *)
| IMap (m : loc)                        (* json.Map *)
| IPMap (m : option loc)                (* *json.Map *)
| IArr (a : loc)                        (* json.Array *)
| IPArr (a : option loc)                (* *json.Array *)
| IVal (v : loc)                        (* json.Value *)
| IPVal (v : option loc)                (* *json.Value *)
| IErrs (l : list goerr)                (* []error (non-nil slice) *)
| IStrs (l : list str)                  (* []string (non-nil slice) *)
| IPErrs (o : option (list goerr))      (* *[]error, by the content of the variable it points
                                           to (simplification: that variable is not changed
                                           while the library holds the pointer) *)
| IPStrs (o : option (list str))        (* *[]string, likewise *)
| IErr (s : str)                        (* error, by message, built by errors.New or fmt.Errorf
                                           without %w: its dynamic type is *errors.errorString *)
| IPErr (o : option goerr)              (* *error, by the error it points to *)
| ITimeV (t : nat)                      (* time.Time *)
| IFunc (f : nat)                       (* non-nil func(string) []error, by an identifier of the
                                           function *)
| IPFunc (o : option nat)               (* *func(string) []error, by the function it points to *)
| ITime (t : option nat)                (* *time.Time, by an identifier of the instant *)
| IOther (name : str) (id : option nat). (* a value of any other type, by its %T name: [id] tells
                                           values apart, [None] is a nil pointer *)

(** State of a map: [internal_map], [internal_keys] and the array
    [internal_keys_obj] (Map.go:172-174).  [internal_map] is a Go map from
    strings to [*Value]; it is an association list read through
    [tbl_get]/[tbl_put]/[tbl_del] only, so its order is not observable. *)
Record mobj := MObj { m_tbl : list (str * option loc); m_keys : list str; m_vals : loc }.

Inductive cell :=
| CPtr (s : scalar)              (* variable a scalar pointer points to *)
| CVal (i : iface)               (* internal_value of a Value, Value.go:137 *)
| CMap (m : mobj)                (* private variables of a Map, Map.go:172-174 *)
| CArr (l : list (option loc)).  (* *values of an Array, Array.go:93-95 *)

Definition heap := list cell.

(** Outcomes.  [Panic] is a Go run-time panic.  [Stuck] marks a heap that no Go
    program can produce (a handle to a cell of another type); it is proved
    unreachable.  [NoFuel] is only returned by the two recursive traversals. *)
Inductive res (A : Type) :=
| Ok (a : A) | Panic | Stuck | NoFuel.
Arguments Ok {A} a.
Arguments Panic {A}.
Arguments Stuck {A}.
Arguments NoFuel {A}.

Definition rbind {A B} (x : res A) (f : A -> res B) : res B :=
  match x with Ok a => f a | Panic => Panic | Stuck => Stuck | NoFuel => NoFuel end.

(** State transformers. *)
Definition M (A : Type) := heap -> res (A * heap).
Definition ret {A} (a : A) : M A := fun h => Ok (a, h).
Definition bind {A B} (x : M A) (f : A -> M B) : M B :=
  fun h => match x h with
           | Ok (a, h') => f a h'
           | Panic => Panic | Stuck => Stuck | NoFuel => NoFuel
           end.
Definition mpanic {A} : M A := fun _ => Panic.
Definition mstuck {A} : M A := fun _ => Stuck.
Definition mlift {A} (f : heap -> res A) : M A :=
  fun h => rbind (f h) (fun a => Ok (a, h)).

Notation "x <- c1 ;; c2" := (bind c1 (fun x => c2))
  (at level 61, c1 at next level, right associativity).
Notation "c1 ;; c2" := (bind c1 (fun _ => c2))
  (at level 61, right associativity).
Notation "x <-r c1 ;; c2" := (rbind c1 (fun x => c2))
  (at level 61, c1 at next level, right associativity).

(** Allocation of a fresh variable. *)
Definition alloc (c : cell) : M loc := fun h => Ok (length h, h ++ [c]).

Fixpoint upd {A} (l : list A) (n : nat) (x : A) : list A :=
  match l, n with
  | [], _ => []
  | _ :: t, O => x :: t
  | y :: t, S k => y :: upd t k x
  end.

(** Typed reads. *)
Definition rd_ptr (h : heap) (l : loc) : res scalar :=
  match nth_error h l with Some (CPtr s) => Ok s | _ => Stuck end.
Definition rd_val (h : heap) (l : loc) : res iface :=
  match nth_error h l with Some (CVal i) => Ok i | _ => Stuck end.
Definition rd_map (h : heap) (l : loc) : res mobj :=
  match nth_error h l with Some (CMap m) => Ok m | _ => Stuck end.
Definition rd_arr (h : heap) (l : loc) : res (list (option loc)) :=
  match nth_error h l with Some (CArr a) => Ok a | _ => Stuck end.

Definition wr (l : loc) (c : cell) : M unit :=
  fun h => if Nat.ltb l (length h) then Ok (tt, upd h l c) else Stuck.

(** Errors.  One constructor per error site or per family of sites with the
    same meaning; message texts are in MessageModel.v and SaysModel.v. *)
Inductive err :=
(* Parse, JSON.go:31-117 *)
| EEmpty | ENoOpen | ENoClose | EBrackets | ESquares | EQuotes
(* unquote_key_value and parseJSONValue, JSON.go:132,455-618 *)
| EListEmpty | EKeyQuote | EValQuote | ENegPos | ENegCount | EDotCount
| EFloatSyn | EIntSyn | EUintSyn
(* getters, Value.go *)
| EType          (* "type %s is not supported", "failed to unbox" *)
| ENilValue      (* "... is nil", "returned nil" *)
| EGreater       (* uint64 above 2^63-1, Value.go:1096,1103 *)
| ENegative      (* negative for unsigned, Value.go:1230.. *)
| ERange         (* "value is not in range [..]" *)
| EConv          (* cannot convert a string *)
| EBoolText      (* unknown boolean text *)
| EFloatRange    (* float32 out of range, Value.go:817,842 *)
(* arrays and maps *)
| EIndexNeg | EIndexRange | EElem | ENullElem
| EKeyMap | EKeyArr
(* serialiser and clone *)
| EBuilder | EUnsupported | EEscape | ECloneNil.

(** Result of the Go convention [(result, []error)] for pointer results: nil
    errors with a possibly nil pointer, or a non-empty error list. *)
Inductive gres (A : Type) := GVal (a : A) | GErr (e : list err).
Arguments GVal {A} a.
Arguments GErr {A} e.

(** Access to [internal_map]. *)
Fixpoint tbl_get (t : list (str * option loc)) (k : str) : option (option loc) :=
  match t with
  | [] => None
  | (k', v) :: t' => if str_eqb k' k then Some v else tbl_get t' k
  end.
Definition tbl_del (t : list (str * option loc)) (k : str) : list (str * option loc) :=
  filter (fun kv => negb (str_eqb (fst kv) k)) t.
Definition tbl_put (t : list (str * option loc)) (k : str) (v : option loc)
  : list (str * option loc) := (k, v) :: tbl_del t k.
