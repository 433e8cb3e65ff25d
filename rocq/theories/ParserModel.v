(** * Parsing (/repo/json/JSON.go:28-767) *)
From Coq Require Import Ascii String List NArith ZArith Bool.
From Verif Require Import GoStr GoNum GoFloat Heap Common ValueModel ArrayModel MapModel.
Import ListNotations.

(** ** Scalar tokens *)

(** What parseJSONValue stores: nothing, null or a scalar. *)
Inductive payload := PEmpty | PNull | PScal (s : scalar).

(** Removal of \n, \t, space, \r and backslash, in this order (JSON.go:504-508). *)
Definition strip_token (s : str) : str :=
  replace_all [c_bs] []
    (replace_all [c_cr] []
       (replace_all [c_sp] []
          (replace_all [c_tab] []
             (replace_all [c_nl] [] s)))).

(** Narrowest signed type, JSON.go:584-613.  (The second ParseInt calls with 8, 16
    or 32 bits succeed on the same text with the same value.) *)
Definition narrow_signed (z : Z) : scalar :=
  if (Z.leb (-128) z && Z.leb z 127) then SInt KInt8 z
  else if (Z.leb (-32768) z && Z.leb z 32767) then SInt KInt16 z
  else if (Z.leb (-2147483648) z && Z.leb z 2147483647) then SInt KInt32 z
  else SInt KInt64 z.

(** Narrowest unsigned type, JSON.go:627-656. *)
Definition narrow_unsigned (z : Z) : scalar :=
  if (Z.leb 0 z && Z.leb z 255) then SInt KUInt8 z
  else if (Z.leb 256 z && Z.leb z 65535) then SInt KUInt16 z
  else if (Z.leb 65536 z && Z.leb z 4294967295) then SInt KUInt32 z
  else SInt KUInt64 z.

(** Number tokens, JSON.go:524-669. *)
Definition number_token (s : str) : gres payload :=
  let minus := count_byte c_min s in
  let dots := count_byte c_dot s in
  let errs :=
    (match minus with
     | 0 => []
     | 1 => if has_prefix [c_min] s then [] else [ENegPos]
     | _ => [ENegCount]
     end) ++
    (match dots with 0 | 1 => [] | _ => [EDotCount] end) in
  match errs with
  | _ :: _ => GErr errs
  | [] =>
      if Nat.eqb dots 1 then
        match parse_float F64 s with
        | None => GErr [EFloatSyn]
        | Some d => match parse_float F32 s with
                    | Some f => GVal (PScal (SFlt F32 f))
                    | None => GVal (PScal (SFlt F64 d))
                    end
        end
      else if Nat.eqb minus 1 then
        match parse_int 64 s with
        | None => GErr [EIntSyn]
        | Some z => GVal (PScal (narrow_signed z))
        end
      else
        match parse_uint 64 s with
        | None => GErr [EUintSyn]
        | Some z => GVal (PScal (narrow_unsigned z))
        end
  end.

(** Unquoted tokens, JSON.go:503-669. *)
Definition scalar_token (v : str) : gres payload :=
  let s := strip_token v in
  if str_eqb s (lit "true") then GVal (PScal (SBool true))
  else if str_eqb s (lit "false") then GVal (PScal (SBool false))
  else if str_eqb s (lit "null") then GVal PNull
  else if str_eqb s [] then GVal PEmpty
  else number_token s.

(** TrimSpace and unescaping of double quotes, JSON.go:464-468. *)
Definition clean (s : str) : str := replace_all [c_bs; c_dq] [c_dq] (trim_space s).

Definition is_quoted (s : str) : bool := has_prefix [c_dq] s && has_suffix [c_dq] s.

(** The part of parseJSONValue that does not touch the container,
    JSON.go:462-680: the key (for a map) and the payload, or the errors.  The
    slice expression panics on a string that is a single double quote. *)
Definition value_text (is_map : bool) (key value : str) : res (gres (str * payload)) :=
  let k := clean key in
  let v := clean value in
  ke <-r (if is_map then
            if is_quoted k then
              match slice_inner k with Some k' => Ok (k', []) | None => Panic end
            else Ok (k, [EKeyQuote])
          else Ok (k, [])) ;;
  ve <-r (if contains_byte c_dq v then
            if is_quoted v then
              match slice_inner v with Some v' => Ok (true, v', []) | None => Panic end
            else Ok (false, v, [EValQuote])
          else Ok (false, v, [])) ;;
  match snd ke ++ snd ve with
  | (_ :: _) as e => Ok (GErr e)
  | [] =>
      if fst (fst ve) then Ok (GVal (fst ke, PScal (SStr (snd (fst ve)))))
      else Ok (match scalar_token (snd (fst ve)) with
               | GVal p => GVal (fst ke, p)
               | GErr e => GErr e
               end)
  end.

(** ** The stack machine *)

(** Modes, JSON.go:147-151. *)
Inductive pmode := MKeys | MKeyName | MColumn | MValue | MNext.

(** The metrics map, JSON.go:51-64,169-221.  The six counters live in a json.Map
    keyed by six distinct constants and are read back with GetInt through the
    same pointers; they are modelled as six counters. *)
Record counts := Counts {
  n_lb : nat; n_rb : nat; n_ls : nat; n_rs : nat; n_oq : nat; n_cq : nat }.
Definition counts0 := Counts 0 0 0 0 0 0.
Definition count_bracket (b : ascii) (c : counts) : counts :=
  if Ascii.eqb b c_lb then Counts (S (n_lb c)) (n_rb c) (n_ls c) (n_rs c) (n_oq c) (n_cq c)
  else if Ascii.eqb b c_rb then Counts (n_lb c) (S (n_rb c)) (n_ls c) (n_rs c) (n_oq c) (n_cq c)
  else if Ascii.eqb b c_ls then Counts (n_lb c) (n_rb c) (S (n_ls c)) (n_rs c) (n_oq c) (n_cq c)
  else if Ascii.eqb b c_rs then Counts (n_lb c) (n_rb c) (n_ls c) (S (n_rs c)) (n_oq c) (n_cq c)
  else c.
Definition count_open (c : counts) : counts :=
  Counts (n_lb c) (n_rb c) (n_ls c) (n_rs c) (S (n_oq c)) (n_cq c).
Definition count_close (c : counts) : counts :=
  Counts (n_lb c) (n_rb c) (n_ls c) (n_rs c) (n_oq c) (S (n_cq c)).

(** Local variables of parseJSONMap, JSON.go:143-158.  [p_list] is [list], top
    element first; [p_tk], [p_tv] are temp_key_r and temp_value_r. *)
Record pst := PSt {
  p_mode : pmode; p_ps : bool; p_tk : str; p_tv : str;
  p_list : list loc; p_root : option loc; p_cnt : counts; p_errs : list err }.

Definition pst0 : pst := PSt MValue false [] [] [] None counts0 [].

(** unquote_key_value, JSON.go:127-140. *)
Definition unquote_key (k : str) : res (gres str) :=
  if is_quoted k then
    match slice_inner k with Some k' => Ok (GVal k') | None => Panic end
  else Ok (GErr [EKeyQuote]).

(** Storing a payload, JSON.go:682-760. *)
Definition store_payload (X : ext) (v : loc) (k : str) (p : payload) : M (list err) :=
  is_arr <- mlift (fun h => value_is (common_IsArray X) X h v) ;;
  if is_arr then
    r <- mlift (fun h => value_GetArray X h v) ;;
    match r with
    | GErr e => ret e
    | GVal None => ret [ENilValue]
    | GVal (Some a) =>
        match p with
        | PEmpty => ret []
        | PNull => arr_AppendObject a INil ;; ret []
        | PScal s => arr_AppendObject a (IScal s) ;; ret []
        end
    end
  else
    is_map <- mlift (fun h => value_is common_IsMap X h v) ;;
    if is_map then
      r <- mlift (fun h => value_GetMap X h v) ;;
      match r with
      | GErr e => ret e
      | GVal None => ret [ENilValue]
      | GVal (Some m) =>
          match p with
          | PEmpty => ret []
          | PNull => map_SetObject m k INil ;; ret []
          | PScal s => map_SetScalarValue m k s ;; ret []
          end
      end
    else ret [EType].

(** parseJSONValue, JSON.go:449-767. *)
Definition parseJSONValue (X : ext) (key value : str) (ls : list loc) : M (list err) :=
  match ls with
  | [] => ret [EListEmpty]
  | v :: _ =>
      is_map <- mlift (fun h => value_is common_IsMap X h v) ;;
      r <- mlift (fun _ => value_text is_map key value) ;;
      match r with
      | GErr e => ret e
      | GVal (k, p) => store_payload X v k p
      end
  end.

(** The repeated mode update from the top of the list (JSON.go:204-211,241-247,
    351-357,412-418,429-435); the mode is kept when the list is empty. *)
Definition next_mode (X : ext) (mode : pmode) (ls : list loc) : M pmode :=
  match ls with
  | [] => ret mode
  | v :: _ => b <- mlift (fun h => value_is common_IsMap X h v) ;;
              ret (if b then MKeys else MNext)
  end.

(** Attaching a new container to the top of the list (JSON.go:290-312,366-388):
    [in_map] is what a map parent receives, [in_arr] what an array parent
    receives.  The result is the errors. *)
Definition attach (X : ext) (ls : list loc) (tk : str)
  (in_map : loc -> str -> M unit) (in_arr : loc -> M unit) : M (list err) :=
  match ls with
  | [] => ret []
  | v :: _ =>
      is_map <- mlift (fun h => value_is common_IsMap X h v) ;;
      if is_map then
        u <- mlift (fun _ => unquote_key tk) ;;
        match u with
        | GErr e => ret e
        | GVal k =>
            r <- mlift (fun h => value_GetMap X h v) ;;
            match r with
            | GErr e => ret e
            | GVal (Some m) => in_map m k ;; ret []
            | GVal None => mpanic
            end
        end
      else
        r <- mlift (fun h => value_GetArray X h v) ;;
        match r with
        | GErr e => ret e
        | GVal (Some a) => in_arr a ;; ret []
        | GVal None => mpanic
        end
  end.

(** Closing a container or a scalar in value mode (JSON.go:338-360,399-421 for
    braces and brackets, 422-438 for a comma): parse the pending text, then pop
    when [pop].  Slicing an empty list panics. *)
Definition end_value (X : ext) (pop : bool) (st : pst) : M pst :=
  e <- parseJSONValue X (p_tk st) (p_tv st) (p_list st) ;;
  l <- (if pop then match p_list st with [] => mpanic | _ :: t => ret t end
        else ret (p_list st)) ;;
  md <- next_mode X (p_mode st) l ;;
  ret (PSt md (p_ps st) [] [] l (p_root st) (p_cnt st) (p_errs st ++ e)).

(** Opening brace in value mode, JSON.go:286-337. *)
Definition open_map (X : ext) (st : pst) : M pst :=
  m <- new_map ;;
  v <- new_value (IMap m) ;;
  e <- attach X (p_list st) (p_tk st)
         (fun top k => map_SetValue top k (Some v)) (fun top => arr_AppendValue top (Some v)) ;;
  ret (PSt MKeys (p_ps st) [] [] (v :: p_list st)
         (match p_root st with None => Some m | r => r end) (p_cnt st) (p_errs st ++ e)).

(** Opening bracket in value mode, JSON.go:361-398.  With an empty list the index
    expression at JSON.go:365 panics. *)
Definition open_array (X : ext) (st : pst) : M pst :=
  match p_list st with
  | [] => mpanic
  | _ =>
      a <- new_array ;;
      v <- new_value (IArr a) ;;
      e <- attach X (p_list st) (p_tk st)
             (fun top k => map_SetArrayValue top k a) (fun top => arr_AppendValue top (Some v)) ;;
      ret (PSt MNext (p_ps st) [] [] (v :: p_list st) (p_root st) (p_cnt st) (p_errs st ++ e))
  end.

Definition set_mode (m : pmode) (st : pst) : pst :=
  PSt m (p_ps st) (p_tk st) (p_tv st) (p_list st) (p_root st) (p_cnt st) (p_errs st).
Definition add_key (s : str) (st : pst) : pst :=
  PSt (p_mode st) (p_ps st) (p_tk st ++ s) (p_tv st) (p_list st) (p_root st) (p_cnt st) (p_errs st).
Definition add_val (s : str) (st : pst) : pst :=
  PSt (p_mode st) (p_ps st) (p_tk st) (p_tv st ++ s) (p_list st) (p_root st) (p_cnt st) (p_errs st).

(** Closing brace while looking for keys, JSON.go:236-248. *)
Definition close_keys (X : ext) (st : pst) : M pst :=
  match p_list st with
  | [] => mpanic
  | _ :: l =>
      md <- next_mode X (p_mode st) l ;;
      ret (PSt md (p_ps st) [] [] l (p_root st) (p_cnt st) (p_errs st))
  end.

(** The mode dependent part of the loop body, JSON.go:221-444.  [q] says whether
    the byte is a double quote not preceded by a backslash. *)
Definition step_mode (X : ext) (q : bool) (b : ascii) (st : pst) : M pst :=
  match p_mode st with
  | MKeys =>
      if Ascii.eqb b c_rb then close_keys X st
      else if q then ret (add_key (utf8_of_byte b) (set_mode MKeyName st))
      else ret st
  | MKeyName =>
      ret (add_key (utf8_of_byte b) (if q then set_mode MColumn st else st))
  | MColumn =>
      ret (if Ascii.eqb b c_col then set_mode MNext st else st)
  | MValue | MNext =>
      if match p_mode st with MNext => true | _ => false end
         && (Ascii.eqb b c_sp || Ascii.eqb b c_nl || Ascii.eqb b c_cr
             || Ascii.eqb b c_bs || Ascii.eqb b c_tab)
      then ret st
      else
        let st := set_mode MValue st in
        if negb (p_ps st) then
          if Ascii.eqb b c_lb then open_map X st
          else if Ascii.eqb b c_rb then end_value X true st
          else if Ascii.eqb b c_ls then open_array X st
          else if Ascii.eqb b c_rs then end_value X true st
          else if Ascii.eqb b c_com then end_value X false st
          else ret (add_val (utf8_of_byte b) st)
        else ret (add_val (utf8_of_byte b) st)
  end.

Definition set_ps (ps : bool) (c : counts) (st : pst) : pst :=
  PSt (p_mode st) ps (p_tk st) (p_tv st) (p_list st) (p_root st) c (p_errs st).

(** One iteration of the loop, JSON.go:160-445; [prev] is the previous byte. *)
Definition step (X : ext) (prev : option ascii) (b : ascii) (st : pst) : M pst :=
  let q := Ascii.eqb b c_dq
           && match prev with Some p => negb (Ascii.eqb p c_bs) | None => true end in
  if negb (p_ps st) then
    if q then step_mode X q b (set_ps true (count_open (p_cnt st)) st)
    else step_mode X q b (set_ps false (count_bracket b (p_cnt st)) st)
  else if q then
    let st := set_ps false (count_close (p_cnt st)) st in
    match p_mode st with
    | MValue | MNext => end_value X false (add_val (utf8_of_byte b) st)
    | _ => step_mode X q b st
    end
  else step_mode X q b st.

(** The loop of parseJSONMap, JSON.go:160-445. *)
Fixpoint parse_loop (X : ext) (prev : option ascii) (s : str) (st : pst) : M pst :=
  match s with
  | [] => ret st
  | b :: t => st' <- step X prev b st ;; parse_loop X (Some b) t st'
  end.

(** Parse, JSON.go:28-125.  [GVal None] is a nil map with nil errors. *)
Definition Parse (X : ext) (s : str) : M (gres (option loc)) :=
  let pre := (match s with [] => [EEmpty] | _ => [] end)
             ++ (if has_prefix [c_lb] s then [] else [ENoOpen])
             ++ (if has_suffix [c_rb] s then [] else [ENoClose]) in
  match pre with
  | _ :: _ => ret (GErr pre)
  | [] =>
      if str_eqb s (lit "{}") then m <- new_map ;; ret (GVal (Some m))
      else
        st <- parse_loop X None s pst0 ;;
        match p_errs st with
        | _ :: _ => ret (GErr (p_errs st))
        | [] =>
            let c := p_cnt st in
            let post := (if Nat.eqb (n_lb c) (n_rb c) then [] else [EBrackets])
                        ++ (if Nat.eqb (n_ls c) (n_rs c) then [] else [ESquares])
                        ++ (if Nat.eqb (n_oq c) (n_cq c) then [] else [EQuotes]) in
            match post with
            | _ :: _ => ret (GErr post)
            | [] => ret (GVal (p_root st))
            end
        end
  end.
