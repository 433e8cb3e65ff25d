(** * Serialisation and cloning (/repo/json/JSON.go:769-989 and the
    ToJSONString and Clone methods)

    The two traversals follow pointers, so they recurse on [fuel], the nesting
    depth; [NoFuel] stands for a recursion deeper than [fuel] (in Go: a
    non-terminating recursion when it happens for every [fuel]). *)
From Coq Require Import Ascii String List NArith ZArith Bool.
From Verif Require Import GoStr GoNum GoFloat Heap Common ValueModel ArrayModel MapModel.
Import ListNotations.

(** A string token: escape double quotes only (JSON.go:791-801). *)
Definition quoted (s : str) : str := [c_dq] ++ escape_quotes s ++ [c_dq].

(** The text of a scalar (JSON.go:791-801,828-839,930-978). *)
Definition scalar_json (s : scalar) : str :=
  match s with
  | SStr t => quoted t
  | SBool b => bool_text b
  | SInt k z => int_text k z
  | SFlt _ f => format_f f
  end.

(** Comma separated elements (Array.go:226-236, JSON.go:861-918). *)
Fixpoint json_items {A} (conv : A -> res (str * list err)) (l : list A) : res (str * list err) :=
  match l with
  | [] => Ok ([], [])
  | x :: t =>
      r <-r conv x ;;
      q <-r json_items conv t ;;
      Ok (fst r ++ (match t with [] => [] | _ => [c_com] end) ++ fst q, snd r ++ snd q)
  end.

(** ToJSONString of an array on a non-nil builder, Array.go:212-246. *)
Definition arr_json (conv : iface -> res (str * list err)) (h : heap) (a : loc)
  : res (str * list err) :=
  l <-r rd_arr h a ;;
  match l with
  | [] => Ok (lit "[]", [])
  | _ => r <-r json_items (fun o => conv (IPVal o)) l ;;
         Ok ([c_ls] ++ fst r ++ [c_rs], snd r)
  end.

(** The loop of toJSONString, Map.go:331-351.  The third component says whether
    the loop ran to its end: an EscapeString error returns at once, before the
    closing brace is written. *)
Fixpoint json_members (conv : iface -> res (str * list err)) (X : ext)
  (t : list (str * option loc)) (keys : list str) : res (str * list err * bool) :=
  match keys with
  | [] => Ok ([], [], true)
  | k :: ks =>
      match x_escape X k with
      | None => Ok ([], [EEscape], false)
      | Some e =>
          r <-r conv (IPVal (match tbl_get t k with Some o => o | None => None end)) ;;
          q <-r json_members conv X t ks ;;
          Ok ([c_dq] ++ e ++ [c_dq; c_col] ++ fst r
                ++ (match ks with [] => [] | _ => [c_com] end) ++ fst (fst q),
              snd r ++ snd (fst q), snd q)
      end
  end.

(** toJSONString on a non-nil builder, Map.go:311-358. *)
Definition map_json (conv : iface -> res (str * list err)) (X : ext) (h : heap) (m : loc)
  : res (str * list err) :=
  mo <-r rd_map h m ;;
  match m_keys mo with
  | [] => Ok (lit "{}", [])
  | _ => r <-r json_members conv X (m_tbl mo) (m_keys mo) ;;
         Ok ([c_lb] ++ fst (fst r) ++ (if snd r then [c_rb] else []), snd (fst r))
  end.

Definition func_text (ptr : bool) : str :=
  if ptr then lit "*func(string) []error" else lit "func(string) []error".

(** The other types of which the name is written (JSON.go:920-923,928-929). *)
Definition named_types : list str :=
  [lit "func(string, *string, string, string) []error"; lit "func(json.Map) []error";
   lit "*func(json.Map) []error"; lit "map[string]map[string][][]string"].

(** An element of a []error, JSON.go:892-918: the call of
    ConvertInterfaceValueToJSONStringValue on an error. *)
Definition error_json (e : goerr) : str * list err :=
  match e with
  | NoError => (lit "null", [])
  | Plain s => (quoted s, [])
  | Typed n s => if existsb (str_eqb n) error_types then (quoted s, []) else ([], [EUnsupported])
  end.

(** The text of *p for a pointer p to an error, JSON.go:808-811; formatting a nil error
    with %s does not panic. *)
Definition pointed_error (e : goerr) : str :=
  match e with NoError => lit "%!s(<nil>)" | Plain s | Typed _ s => s end.

(** The switch of ConvertInterfaceValueToJSONStringValue, JSON.go:791-982: the text
    written and the errors; [rec] is the recursive call.  Of the error types
    (JSON.go:804-831) "error" is never the type of a value, and errors.errorString
    cannot be built outside package errors; the others are modelled.  A nil *url.Error is
    dereferenced (JSON.go:814), a nil *exec.ExitError is formatted (JSON.go:822). *)
Definition json_held (rec : iface -> res (str * list err)) (X : ext) (h : heap) (tv : iface)
  : res (str * list err) :=
  match common_GetType X tv with
  | TNil => Ok (lit "null", [])
  | TScal _ | TPtr _ =>
      o <-r deref h tv ;;
      match o with Some s => Ok (scalar_json s, []) | None => Stuck end
  | TMap | TPMap =>
      match tv with
      | IMap m | IPMap (Some m) => map_json rec X h m
      | _ => Panic
      end
  | TArr | TPArr =>
      match tv with
      | IArr a | IPArr (Some a) => arr_json rec h a
      | _ => Panic
      end
  | TErrs | TPErrs =>
      match tv with
      | IErrs l | IPErrs (Some l) =>
          r <-r json_items (fun e => Ok (error_json e)) l ;;
          Ok ([c_ls] ++ fst r ++ [c_rs], snd r)
      | _ => Panic
      end
  | TStrs | TPStrs =>
      match tv with
      | IStrs l | IPStrs (Some l) =>
          r <-r json_items (fun s => Ok (quoted s, [])) l ;;
          Ok ([c_ls] ++ fst r ++ [c_rs], snd r)
      | _ => Panic
      end
  | TErr | TPErr =>
      match tv with
      | IErr s => Ok (quoted s, [])
      | IPErr (Some e) => Ok (quoted (pointed_error e), [])
      | _ => Panic
      end
  | TFunc p => Ok ([c_dq] ++ func_text p ++ [c_dq], [])
  | TPTime => match tv with
              | ITime (Some t) => Ok ([c_dq] ++ x_time X t ++ [c_dq], [])
              | _ => Panic
              end
  | TOther n => if existsb (str_eqb n) named_types
                then Ok ([c_dq] ++ n ++ [c_dq], [])
                else if str_eqb n (lit "*url.Error") && common_IsNil tv then Panic
                else if existsb (str_eqb n) error_types then Ok (quoted (x_sprint X tv), [])
                else Ok ([], [EUnsupported])
  | TVal | TPVal | TTime => Ok ([], [EUnsupported])
  end.

(** ConvertInterfaceValueToJSONStringValue on a non-nil builder, JSON.go:769-989. *)
Fixpoint conv_json (fuel : nat) (X : ext) (h : heap) (i : iface) : res (str * list err) :=
  match fuel with
  | O => NoFuel
  | S f =>
      if common_IsNil i then Ok (lit "null", [])
      else
        tv <-r match i with
               | IVal v | IPVal (Some v) => rd_val h v
               | _ => Ok i
               end ;;
        json_held (conv_json f X h) X h tv
  end.

(** ToJSONString of a map / array with an explicit builder: [None] is a nil
    [*strings.Builder], [Some b] one that holds [b].  The result is the final
    content of the builder and the errors. *)
Definition map_ToJSONString (fuel : nat) (X : ext) (h : heap) (m : loc) (b : option str)
  : res (option str * list err) :=
  match b with
  | None => Ok (None, [EBuilder])
  | Some t => r <-r map_json (conv_json fuel X h) X h m ;; Ok (Some (t ++ fst r), snd r)
  end.
Definition arr_ToJSONString (fuel : nat) (X : ext) (h : heap) (a : loc) (b : option str)
  : res (option str * list err) :=
  match b with
  | None => Ok (None, [EBuilder])
  | Some t => r <-r arr_json (conv_json fuel X h) h a ;; Ok (Some (t ++ fst r), snd r)
  end.

(** ** Clone *)

Inductive ckind := KVal | KMap | KArr.

(** Value.go:159-175, Map.go:365-380, Array.go:126-141: clone the map behind a
    Value known to satisfy IsMap. *)
Definition clone_map_of (rec : ckind -> loc -> M (gres loc)) (X : ext) (v : loc) : M (gres loc) :=
  r <- mlift (fun h => value_GetMap X h v) ;;
  match r with
  | GErr e => ret (GErr e)
  | GVal None => ret (GErr [ECloneNil])
  | GVal (Some m) => rec KMap m
  end.
(** Value.go:176-192, Map.go:381-397, Array.go:142-158. *)
Definition clone_arr_of (rec : ckind -> loc -> M (gres loc)) (X : ext) (v : loc) : M (gres loc) :=
  r <- mlift (fun h => value_GetArray X h v) ;;
  match r with
  | GErr e => ret (GErr e)
  | GVal None => ret (GErr [ECloneNil])
  | GVal (Some a) => rec KArr a
  end.

(** The message of a non-nil error, and whether an error is nil. *)
Definition error_message (e : goerr) : str :=
  match e with NoError => [] | Plain s | Typed _ s => s end.
Definition is_no_error (e : goerr) : bool := match e with NoError => true | _ => false end.
(** A copy of an error: fmt.Errorf of its message (Value.go:205-236). *)
Definition rebuilt (X : ext) (s : str) : goerr := Plain (x_errorf X s).

(** The scalar cases of Value.Clone, Value.go:193-351: [None] is "type not
    supported".  Calling Error() on a nil error panics (Value.go:208,213), and so does
    the dereference of a nil pointer.  Simplification: the clone of an empty []error is a nil slice in
    Go (Value.go:206); it is kept an empty slice here.  common.GetTime is assumed
    to return the given instant. *)
Definition clone_plain (X : ext) (i : iface) : M (option iface) :=
  match common_GetType X i, i with
  | TNil, _ => ret (Some INil)
  | _, IScal s => ret (Some (IScal s))
  | _, IPtr t _ =>
      o <- mlift (fun h => deref h i) ;;
      match o with
      | Some s => p <- alloc (CPtr s) ;; ret (Some (IPtr t (Some p)))
      | None => mstuck
      end
  | _, IErrs l => if existsb is_no_error l then mpanic
                  else ret (Some (IErrs (map (fun e => rebuilt X (error_message e)) l)))
  | _, IErr s | _, IPErr (Some (Plain s)) | _, IPErr (Some (Typed _ s)) =>
      ret (Some (IPErr (Some (rebuilt X s))))
  | _, IPErr _ => mpanic
  | _, ITime (Some t) | _, ITimeV t => ret (Some (ITime (Some t)))
  | _, ITime None => mpanic
  | _, IPFunc _ => ret (Some (IScal (SStr (func_text true))))
  | _, IOther n _ => if str_eqb n (lit "map[string]map[string][][]string")
                     then ret (Some (IScal (SStr n)))
                     else if existsb (str_eqb n) error_types && common_IsNil i then mpanic
                     else if str_eqb n (lit "exec.ExitError") then ret (Some (IErr (x_errorf X (x_sprint X i))))
                     else if existsb (str_eqb n) error_types
                     then ret (Some (IPErr (Some (rebuilt X (x_sprint X i)))))
                     else ret None
  | _, _ => ret None
  end.

(** Value.Clone, Value.go:155-362. *)
Definition clone_value_body (rec : ckind -> loc -> M (gres loc)) (X : ext) (v : loc)
  : M (gres loc) :=
  c <- new_value INil ;;
  g <- mlift (fun h => value_GetType X h v) ;;
  if common_IsMap g then
    r <- clone_map_of rec X v ;;
    match r with
    | GErr e => ret (GErr e)
    | GVal m => value_SetObject c (IPMap (Some m)) ;; ret (GVal c)
    end
  else if common_IsArray X g then
    r <- clone_arr_of rec X v ;;
    match r with
    | GErr e => ret (GErr e)
    | GVal a => value_SetObject c (IPArr (Some a)) ;; ret (GVal c)
    end
  else
    i <- mlift (fun h => value_GetObject h v) ;;
    o <- clone_plain X i ;;
    match o with
    | Some j => value_SetObject c j ;; ret (GVal c)
    | None => ret (GErr [EUnsupported])
    end.

(** One iteration of the loop of Map.clone, Map.go:364-412; [m] is the original,
    [c] the clone.  The result is the list of errors of this key. *)
Definition clone_key (rec : ckind -> loc -> M (gres loc)) (X : ext) (m c : loc) (k : str)
  : M (list err) :=
  is_map <- mlift (fun h => map_is common_IsMap X h m k) ;;
  is_arr <- mlift (fun h => map_is (common_IsArray X) X h m k) ;;
  o <- mlift (fun h => map_GetValue h m k) ;;
  match is_map, is_arr, o with
  | true, _, Some v =>
      r <- clone_map_of rec X v ;;
      match r with
      | GErr e => ret e
      | GVal z => map_SetObject c k (IPMap (Some z)) ;; ret []
      end
  | false, true, Some v =>
      r <- clone_arr_of rec X v ;;
      match r with
      | GErr e => ret e
      | GVal z => map_SetObject c k (IPArr (Some z)) ;; ret []
      end
  | _, _, None => map_SetObject c k INil ;; ret []
  | false, false, Some v =>
      r <- rec KVal v ;;
      match r with
      | GErr e => ret e
      | GVal w => map_SetValue c k (Some w) ;; ret []
      end
  end.

Fixpoint clone_keys (rec : ckind -> loc -> M (gres loc)) (X : ext) (m c : loc) (ks : list str)
  : M (list err) :=
  match ks with
  | [] => ret []
  | k :: t => e <- clone_key rec X m c k ;; e' <- clone_keys rec X m c t ;; ret (e ++ e')
  end.

(** Map.clone, Map.go:360-419. *)
Definition clone_map_body (rec : ckind -> loc -> M (gres loc)) (X : ext) (m : loc) : M (gres loc) :=
  c <- new_map ;;
  ks <- mlift (fun h => map_GetKeys h m) ;;
  e <- clone_keys rec X m c ks ;;
  ret (match e with [] => GVal c | _ => GErr e end).

(** One iteration of Array.clone, Array.go:125-172.  [temp_value.IsMap()] on a nil
    [*Value] dereferences it, so the nil test at Array.go:160 comes too late. *)
Definition clone_elem (rec : ckind -> loc -> M (gres loc)) (X : ext) (c : loc) (o : option loc)
  : M (list err) :=
  match o with
  | None => mpanic
  | Some v =>
      g <- mlift (fun h => value_GetType X h v) ;;
      if common_IsMap g then
        r <- clone_map_of rec X v ;;
        match r with
        | GErr e => ret e
        | GVal z => arr_AppendObject c (IPMap (Some z)) ;; ret []
        end
      else if common_IsArray X g then
        r <- clone_arr_of rec X v ;;
        match r with
        | GErr e => ret e
        | GVal z => arr_AppendObject c (IPArr (Some z)) ;; ret []
        end
      else
        r <- rec KVal v ;;
        match r with
        | GErr e => ret e
        | GVal w => arr_AppendValue c (Some w) ;; ret []
        end
  end.

Fixpoint clone_elems (rec : ckind -> loc -> M (gres loc)) (X : ext) (c : loc)
  (l : list (option loc)) : M (list err) :=
  match l with
  | [] => ret []
  | o :: t => e <- clone_elem rec X c o ;; e' <- clone_elems rec X c t ;; ret (e ++ e')
  end.

(** Array.clone, Array.go:121-179. *)
Definition clone_arr_body (rec : ckind -> loc -> M (gres loc)) (X : ext) (a : loc) : M (gres loc) :=
  c <- new_array ;;
  l <- mlift (fun h => arr_GetValues h a) ;;
  e <- clone_elems rec X c l ;;
  ret (match e with [] => GVal c | _ => GErr e end).

(** The mutually recursive Clone methods. *)
Fixpoint clone (fuel : nat) (X : ext) (k : ckind) (l : loc) : M (gres loc) :=
  match fuel with
  | O => fun _ => NoFuel
  | S f => match k with
           | KVal => clone_value_body (clone f X) X l
           | KMap => clone_map_body (clone f X) X l
           | KArr => clone_arr_body (clone f X) X l
           end
  end.
