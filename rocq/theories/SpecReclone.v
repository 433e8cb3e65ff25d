(** * Specification: the clone of a map that lists other names than it holds *)
From Coq Require Import Ascii String List NArith ZArith Bool.
From Verif Require Import GoStr GoNum GoFloat Heap Common ValueModel ArrayModel MapModel SpecDict SpecWorld SpecRelabel.
Import ListNotations.

(** The strings of a list, each at its first place only. *)
Fixpoint once (l : list str) : list str :=
  match l with
  | [] => []
  | k :: t => k :: filter (fun x => negb (str_eqb x k)) (once t)
  end.
Definition is_in (k : str) (l : list str) : bool := existsb (str_eqb k) l.

(** What a clone holds under a name that the original lists: a new Value, nil when the original
    holds nothing there, and else a copy of what the Value there holds.  [x] is what that Value
    holds, [new] says which variables are new and [var]s tell what variables hold. *)
Definition copied (new : nat -> Prop) (var var' : nat -> option scalar) (x y : iface) : Prop :=
  match x with
  | INil => y = INil
  | IScal s => y = IScal s
  | IPtr t (Some p) => exists p' s, y = IPtr t (Some p') /\ new p' /\ var p = Some s /\ var' p' = Some s
  | IMap _ | IPMap (Some _) => exists z, y = IPMap (Some z) /\ new z
  | IArr _ | IPArr (Some _) => exists z, y = IPArr (Some z) /\ new z
  | _ => True
  end.
(** What a variable holds. *)
Definition variable (h : heap) (p : nat) : option scalar := match rd_ptr h p with Ok s => Some s | _ => None end.

(** Clones at every depth.  The original is told by what it holds, [w], and by the names its maps list, [ns]; the
    clone by what GetKeys, HasKey, GetValue, GetValues and GetObject return in the state [t]; [new] says what is new.
    [same_to n] follows [n] levels. *)
Section Deep.
  Context (w : world) (ns : names) (t : heap) (new : nat -> Prop).
  Definition map_clone (same : iface -> iface -> Prop) (m c : nat) : Prop :=
    map_GetKeys t c = Ok (once (ns m)) /\ (forall k, map_HasKey t c k = Ok (is_in k (ns m)))
    /\ forall k, In k (ns m) -> exists v y, map_GetValue t c k = Ok (Some v) /\ new v /\ value_GetObject t v = Ok y
         /\ match dict_get (map_at w m) k with
            | Some (Some v0) => exists x, w_val w v0 = Some x /\ same x y
            | _ => y = INil
            end.
  Definition arr_clone (same : iface -> iface -> Prop) (a c : nat) : Prop :=
    exists l, arr_GetValues t c = Ok l
      /\ Forall2 (fun o o' => exists v0 x v y, o = Some v0 /\ w_val w v0 = Some x /\ o' = Some v /\ new v
                               /\ value_GetObject t v = Ok y /\ same x y) (arr_at w a) l.
  Fixpoint same_to (n : nat) (x y : iface) : Prop :=
    match n with
    | O => True
    | S n =>
        match x with
        | INil | IPtr _ None | IPMap None | IPArr None | ITime None => y = INil
        | IScal s => y = IScal s
        | ITimeV i | ITime (Some i) => y = ITime (Some i)
        | IErrs l => exists l', y = IErrs l' /\ length l' = length l
        | IPtr ty (Some p) => exists p' s, y = IPtr ty (Some p') /\ new p' /\ w_var w p = Some s /\ variable t p' = Some s
        | IMap m | IPMap (Some m) => exists c, y = IPMap (Some c) /\ new c /\ map_clone (same_to n) m c
        | IArr a | IPArr (Some a) => exists c, y = IPArr (Some c) /\ new c /\ arr_clone (same_to n) a c
        | _ => True
        end
    end.
End Deep.
