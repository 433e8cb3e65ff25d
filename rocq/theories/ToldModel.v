(** * The texts of the errors of ToJSONString, of the conversions and of Clone
      (/repo/json/JSON.go:769-1106, Map.go:311-419, Array.go:121-246, Value.go:155-362)

    As in SaysModel.v: each definition computes the messages of a call, in order, with
    the control flow of JsonModel.v.  Clone reads the state it was called in: it changes
    no object that existed (C36). *)
From Coq Require Import Ascii String List NArith ZArith Bool.
From Verif Require Import GoStr GoNum GoFloat Heap Common ValueModel ArrayModel MapModel JsonModel SaysModel.
Import ListNotations.

(** JSON.go:981. *)
Definition json_type_text (t : str) : str :=
  lit "error: JSON.ConvertInterfaceValueToJSONStringValue: type " ++ t ++ lit " is not supported please implement".
(** JSON.go:772, Map.go:314, Array.go:216. *)
Definition builder_text : str := lit "error: *strings.Builder is nil".

(** The messages of all elements, Array.go:229-236, JSON.go:861-918. *)
Fixpoint items_say {A} (says : A -> res (list str)) (l : list A) : res (list str) :=
  match l with
  | [] => Ok []
  | x :: t => r <-r says x ;; q <-r items_say says t ;; Ok (r ++ q)
  end.

(** Array.go:212-246. *)
Definition arr_json_says (says : iface -> res (list str)) (h : heap) (a : loc) : res (list str) :=
  l <-r rd_arr h a ;; items_say (fun o => says (IPVal o)) l.

Section Told.
  (** [E]: the message of common.EscapeString for a key it rejects. *)
  Context (E : str -> str) (X : ext).

  (** Map.go:331-351: a rejected key ends the loop. *)
  Fixpoint members_say (says : iface -> res (list str)) (t : list (str * option loc)) (keys : list str) : res (list str) :=
    match keys with
    | [] => Ok []
    | k :: ks =>
        match x_escape X k with
        | None => Ok [E k]
        | Some _ =>
            r <-r says (IPVal (match tbl_get t k with Some o => o | None => None end)) ;;
            q <-r members_say says t ks ;;
            Ok (r ++ q)
        end
    end.
  (** Map.go:311-358. *)
  Definition map_json_says (says : iface -> res (list str)) (h : heap) (m : loc) : res (list str) :=
    mo <-r rd_map h m ;; members_say says (m_tbl mo) (m_keys mo).

  (** An element of a []error, JSON.go:892-918. *)
  Definition error_says (e : goerr) : list str :=
    match e with
    | NoError | Plain _ => []
    | Typed n _ => if existsb (str_eqb n) error_types then [] else [json_type_text n]
    end.

  (** JSON.go:791-982. *)
  Definition held_says (rec : iface -> res (list str)) (h : heap) (tv : iface) : res (list str) :=
    match common_GetType X tv with
    | TNil => Ok []
    | TScal _ | TPtr _ =>
        o <-r deref h tv ;;
        match o with Some _ => Ok [] | None => Stuck end
    | TMap | TPMap =>
        match tv with
        | IMap m | IPMap (Some m) => map_json_says rec h m
        | _ => Panic
        end
    | TArr | TPArr =>
        match tv with
        | IArr a | IPArr (Some a) => arr_json_says rec h a
        | _ => Panic
        end
    | TErrs | TPErrs =>
        match tv with
        | IErrs l | IPErrs (Some l) => Ok (flat_map error_says l)
        | _ => Panic
        end
    | TStrs | TPStrs =>
        match tv with
        | IStrs _ | IPStrs (Some _) => Ok []
        | _ => Panic
        end
    | TErr | TPErr =>
        match tv with
        | IErr _ | IPErr (Some _) => Ok []
        | _ => Panic
        end
    | TFunc _ => Ok []
    | TPTime => match tv with ITime (Some _) => Ok [] | _ => Panic end
    | TOther n => if existsb (str_eqb n) named_types then Ok []
                  else if str_eqb n (lit "*url.Error") && common_IsNil tv then Panic
                  else if existsb (str_eqb n) error_types then Ok []
                  else Ok [json_type_text (gtype_text (TOther n))]
    | TVal => Ok [json_type_text (gtype_text TVal)]
    | TPVal => Ok [json_type_text (gtype_text TPVal)]
    | TTime => Ok [json_type_text (gtype_text TTime)]
    end.

  (** JSON.go:769-989. *)
  Fixpoint conv_says (fuel : nat) (h : heap) (i : iface) : res (list str) :=
    match fuel with
    | O => NoFuel
    | S f =>
        if common_IsNil i then Ok []
        else
          tv <-r match i with
                 | IVal v | IPVal (Some v) => rd_val h v
                 | _ => Ok i
                 end ;;
          held_says (conv_says f h) h tv
    end.

  (** ToJSONString of a map and of an array, and ConvertInterfaceValueToJSONStringValue;
      [b] is false for a nil builder. *)
  Definition map_ToJSONString_says (fuel : nat) (h : heap) (m : loc) (b : bool) : res (list str) :=
    if b then map_json_says (conv_says fuel h) h m else Ok [builder_text].
  Definition arr_ToJSONString_says (fuel : nat) (h : heap) (a : loc) (b : bool) : res (list str) :=
    if b then arr_json_says (conv_says fuel h) h a else Ok [builder_text].
  Definition convert_json_says (fuel : nat) (h : heap) (i : iface) (b : bool) : res (list str) :=
    if b then conv_says fuel h i else Ok [builder_text].

  (** ConvertInterfaceValueToStringValue, JSON.go:991-1106: at most one message, about the
      type of what a Value holds. *)
  Definition convert_string_says (h : heap) (i : iface) : res (list str) :=
    tv <-r match i with
           | IVal v | IPVal (Some v) => rd_val h v
           | _ => Ok i
           end ;;
    r <-r conv_string X h i ;;
    Ok (match r with
        | GVal _ => []
        | GErr _ => [conv_text X tv]
        end).

  (** ** Clone *)

  (** Value.go:159-175, Map.go:365-380, Array.go:126-141; [who] is the type whose Clone it is. *)
  Definition clone_map_says (rec : ckind -> loc -> res (list str)) (h : heap) (who : str) (v : loc) : res (list str) :=
    r <-r value_GetMap X h v ;;
    match r with
    | GErr _ => map_ptr_says X h v
    | GVal None => Ok [who ++ lit ".Clone map is nil"]
    | GVal (Some m) => rec KMap m
    end.
  (** Value.go:176-192, Map.go:381-397, Array.go:142-158. *)
  Definition clone_arr_says (rec : ckind -> loc -> res (list str)) (h : heap) (who : str) (v : loc) : res (list str) :=
    r <-r value_GetArray X h v ;;
    match r with
    | GErr _ => array_says X h v
    | GVal None => Ok [who ++ lit ".Clone array is nil"]
    | GVal (Some a) => rec KArr a
    end.

  (** Value.go:193-353. *)
  Definition clone_plain_says (h : heap) (i : iface) : res (list str) :=
    r <-r clone_plain X i h ;;
    Ok (match fst r with
        | Some _ => []
        | None => [lit "error: Value.Clone: type " ++ gtype_text (common_GetType X i) ++ lit " is not supported please implement"]
        end).

  (** Value.go:155-362. *)
  Definition clone_value_says (rec : ckind -> loc -> res (list str)) (h : heap) (v : loc) : res (list str) :=
    g <-r value_GetType X h v ;;
    if common_IsMap g then clone_map_says rec h (lit "Value") v
    else if common_IsArray X g then clone_arr_says rec h (lit "Value") v
    else i <-r value_GetObject h v ;; clone_plain_says h i.

  (** One iteration of the loop of Map.clone, Map.go:364-412. *)
  Definition clone_key_says (rec : ckind -> loc -> res (list str)) (h : heap) (m : loc) (k : str) : res (list str) :=
    is_map <-r map_is common_IsMap X h m k ;;
    is_arr <-r map_is (common_IsArray X) X h m k ;;
    o <-r map_GetValue h m k ;;
    match is_map, is_arr, o with
    | true, _, Some v => clone_map_says rec h (lit "Map") v
    | false, true, Some v => clone_arr_says rec h (lit "Map") v
    | _, _, None => Ok []
    | false, false, Some v => rec KVal v
    end.
  (** Map.go:360-419. *)
  Definition clone_members_say (rec : ckind -> loc -> res (list str)) (h : heap) (m : loc) : res (list str) :=
    ks <-r map_GetKeys h m ;; items_say (clone_key_says rec h m) ks.

  (** One iteration of Array.clone, Array.go:125-172. *)
  Definition clone_elem_says (rec : ckind -> loc -> res (list str)) (h : heap) (o : option loc) : res (list str) :=
    match o with
    | None => Panic
    | Some v =>
        g <-r value_GetType X h v ;;
        if common_IsMap g then clone_map_says rec h (lit "Array") v
        else if common_IsArray X g then clone_arr_says rec h (lit "Array") v
        else rec KVal v
    end.
  (** Array.go:121-179. *)
  Definition clone_elems_say (rec : ckind -> loc -> res (list str)) (h : heap) (a : loc) : res (list str) :=
    l <-r arr_GetValues h a ;; items_say (clone_elem_says rec h) l.

  Fixpoint clone_says (fuel : nat) (h : heap) (k : ckind) (l : loc) : res (list str) :=
    match fuel with
    | O => NoFuel
    | S f => match k with
             | KVal => clone_value_says (clone_says f h) h l
             | KMap => clone_members_say (clone_says f h) h l
             | KArr => clone_elems_say (clone_says f h) h l
             end
    end.
End Told.
