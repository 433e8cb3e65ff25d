(** * The vocabulary of the tests of the project (/repo/tests)

    The tests parse a text and look at the result with the getters of Map.  The files
    TestSuiteA.v, ... restate each test on the model, by name; what a test calls t.Errorf for is
    false here. *)
From Coq Require Import Ascii String List NArith ZArith Bool.
From Verif Require Import GoStr GoNum GoFloat Heap Common ValueModel ArrayModel MapModel JsonModel ParserModel GetterModel SaysModel.
Import ListNotations.

(** What a getter returns: a pointer, a map, a list (of values or of pointers). *)
Inductive tval := VNil | VScal (s : scalar) | VObj (m : loc) | VList (l : list (option scalar)).
(** The value, and whether there are errors. *)
Definition tres := (tval * bool)%type.

Definition to_t {A} (f : A -> tval) (r : gres A) : tres := match r with GVal a => (f a, false) | GErr _ => (VNil, true) end.
Definition t_ptr {A} (c : A -> scalar) (o : option A) : tval := match o with Some a => VScal (c a) | None => VNil end.
Definition t_list {A} (c : A -> scalar) (l : list (option A)) : tval := VList (map (option_map c) l).
Definition t_vals {A} (c : A -> scalar) (l : list A) : tval := VList (map (fun a => Some (c a)) l).
Definition t_opt {A} (f : A -> tval) (o : option A) : tval := match o with Some a => f a | None => VNil end.

Section Kit.
  Let X := std_ext.
  Definition GetInt (k : ikind) h m s : res tres := rmap (to_t (t_ptr (SInt k))) (map_GetIntKind k X h m s).
  Definition GetFloat32 h m s : res tres := rmap (to_t (t_ptr (SFlt F32))) (map_GetFloat32 X h m s).
  Definition GetFloat64 h m s : res tres := rmap (to_t (t_ptr (SFlt F64))) (map_GetFloat64 X h m s).
  Definition GetString h m s : res tres := rmap (to_t (t_ptr SStr)) (map_GetString X h m s).
  Definition GetBool h m s : res tres := rmap (to_t (t_ptr SBool)) (map_GetBool X h m s).
  Definition GetMap h m s : res tres := rmap (to_t (t_opt VObj)) (map_GetMap X h m s).
  Definition GetArrayOfInt (k : ikind) h m s : res tres :=
    rmap (to_t (t_opt (t_list (SInt k)))) (map_array_of (arr_GetArrayOfIntKind k X) X h m s).
  Definition GetArrayOfFloat32 h m s : res tres := rmap (to_t (t_opt (t_list (SFlt F32)))) (map_array_of (arr_GetArrayOfFloat32 X) X h m s).
  Definition GetArrayOfFloat64 h m s : res tres := rmap (to_t (t_opt (t_list (SFlt F64)))) (map_array_of (arr_GetArrayOfFloat64 X) X h m s).
  Definition GetArrayOfString h m s : res tres := rmap (to_t (t_opt (t_list SStr))) (map_array_of (arr_GetArrayOfString X) X h m s).
  Definition GetArrayOfBool h m s : res tres := rmap (to_t (t_opt (t_list SBool))) (map_array_of (arr_GetArrayOfBool X) X h m s).
  Definition GetArrayOfFloat32Value h m s : res tres := rmap (to_t (t_vals (SFlt F32))) (map_array_of_value (arr_GetArrayOfFloat32Value X) X h m s).
  Definition GetArrayOfFloat64Value h m s : res tres := rmap (to_t (t_vals (SFlt F64))) (map_array_of_value (arr_GetArrayOfFloat64Value X) X h m s).
  Definition GetArrayOfBoolValue h m s : res tres := rmap (to_t (t_opt (t_vals SBool))) (map_array_of (arr_GetArrayOfBoolValue X) X h m s).

  (** A panic fails the test. *)
  Definition call (r : res tres) (k : tval -> bool -> bool) : bool := match r with Ok (v, e) => k v e | _ => false end.
  Definition yes (r : res bool) : bool := match r with Ok b => b | _ => false end.

  Definition HasKey h m s : bool := yes (map_HasKey h m s).
  Definition Is (p : gtype -> bool) h m s : bool := yes (map_is p X h m s).
  Definition TypeIs h m s (t : str) : bool := yes (rmap (fun g => str_eqb (gtype_text g) t) (map_GetType X h m s)).
  Definition KeyCount h m (n : nat) : bool := yes (rmap (fun l => Nat.eqb (length l) n) (map_GetKeys h m)).
  Definition IsArrayType := common_IsArray X.
  Definition KeyCountOf h (v : tval) (n : nat) : bool := match v with VObj m => KeyCount h m n | _ => false end.
  Definition on (v : tval) (k : loc -> bool) : bool := match v with VObj m => k m | _ => false end.

  Definition is_nil (v : tval) : bool := match v with VNil => true | _ => false end.
  Definition flt_same (a b : flt) : bool :=
    match a, b with
    | FFin n m e, FFin n' m' e' => Bool.eqb n n' && (m =? m')%Z && (e =? e')%Z
    | FInf n, FInf n' => Bool.eqb n n'
    | _, _ => false
    end.
  Definition scal_same (s t : scalar) : bool :=
    match s, t with
    | SStr a, SStr b => str_eqb a b
    | SBool a, SBool b => Bool.eqb a b
    | SInt k a, SInt l b => ikind_eqb k l && (a =? b)%Z
    | SFlt F32 a, SFlt F32 b | SFlt F64 a, SFlt F64 b => flt_same a b
    | _, _ => false
    end.
  Definition scal_is (s : scalar) (o : option scalar) : bool := match o with Some t => scal_same s t | None => false end.
  (** A decimal constant, converted to the type of the other side. *)
  Definition dec (k : fkind) (s : str) : option scalar := option_map (SFlt k) (parse_float k s).

  Definition val_is (v : tval) (c : option scalar) : bool := match v with VScal s => scal_is s c | _ => false end.
  Definition len_is (v : tval) (n : nat) : bool := match v with VList l => Nat.eqb (length l) n | _ => false end.
  Definition elem_is (v : tval) (i : nat) (c : option scalar) : bool :=
    match v with VList l => match nth_error l i with Some (Some s) => scal_is s c | _ => false end | _ => false end.
  Definition elem_nil (v : tval) (i : nat) : bool :=
    match v with VList l => match nth_error l i with Some None => true | _ => false end | _ => false end.

  (** json.Parse, in the state h0. *)
  Definition with_parse (h0 : heap) (s : str) (k : heap -> tval -> bool -> bool) : bool :=
    match Parse X s h0 with
    | Ok (r, h) => let (v, e) := to_t (t_opt VObj) r in k h v e
    | _ => false
    end.
  (** ParseJSONSuccessfully, JSON_test.go:10-24, with PrintJSON, JSON_test.go:26-40. *)
  Definition ParseJSONSuccessfully (h0 : heap) (s : str) (k : heap -> loc -> bool) : bool :=
    match Parse X s h0 with
    | Ok (GVal (Some m), h) =>
        match map_ToJSONString 100 X h m (Some []) with
        | Ok (_, []) => k h m
        | _ => false
        end
    | _ => false
    end.
End Kit.
