(** * The texts of Parse's errors (/repo/json/JSON.go:28-140,449-669)

    ParserModel.v has kinds of errors.  Here the texts: each definition computes, from the
    state before a step, the messages which that step appends to [errors].  The control
    flow is that of ParserModel.v. *)
From Coq Require Import Ascii String List NArith ZArith Bool.
From Verif Require Import GoStr GoNum GoFloat Heap Common ValueModel ArrayModel MapModel ParserModel.
Import ListNotations.

(** The verb %d with an int. *)
Definition say_int (n : nat) : str := format_int (Z.of_nat n).

(** ** strconv.Quote, used by the text of a strconv.NumError

    Modelled for text of code points below 256, which is all that the parser's values
    contain (each byte of the input becomes one code point, JSON.go:161-168).  Longer
    sequences would be shown as bytes here. *)
Definition hex_digit (n : N) : ascii := ascii_of_N (if N.ltb n 10 then 48 + n else 87 + n)%N.
Definition hex2 (n : N) : str := [hex_digit (n / 16); hex_digit (n mod 16)]%N.

(** strconv.IsPrint below 256. *)
Definition is_print (n : N) : bool :=
  ((N.leb 32 n && N.ltb n 127) || (N.leb 161 n && N.leb n 255 && negb (N.eqb n 173)))%N.

(** One code point [n], encoded as [bytes]. *)
Definition quote_code (n : N) (bytes : str) : str :=
  (if N.eqb n 34 || N.eqb n 92 then c_bs :: bytes
   else if is_print n then bytes
   else if N.eqb n 7 then [c_bs; "a"%char]
   else if N.eqb n 8 then [c_bs; "b"%char]
   else if N.eqb n 12 then [c_bs; "f"%char]
   else if N.eqb n 10 then [c_bs; "n"%char]
   else if N.eqb n 13 then [c_bs; "r"%char]
   else if N.eqb n 9 then [c_bs; "t"%char]
   else if N.eqb n 11 then [c_bs; "v"%char]
   else if N.ltb n 32 || N.eqb n 127 then c_bs :: "x"%char :: hex2 n
   else c_bs :: "u"%char :: hex2 (n / 256) ++ hex2 (n mod 256))%N.

Fixpoint quote_body (s : str) : str :=
  match s with
  | [] => []
  | a :: t =>
      let x := N_of_ascii a in
      if N.ltb x 128 then quote_code x [a] ++ quote_body t
      else match t with
           | b :: u =>
               let y := N_of_ascii b in
               if (N.eqb x 194 || N.eqb x 195) && N.leb 128 y && N.ltb y 192
               then quote_code ((x - 192) * 64 + (y - 128)) [a; b] ++ quote_body u
               else (c_bs :: "x"%char :: hex2 x) ++ quote_body t
           | [] => c_bs :: "x"%char :: hex2 x
           end
  end.
Definition go_quote (s : str) : str := c_dq :: quote_body s ++ [c_dq].

(** The reason why strconv.ParseUint(s, 10, 64) fails: it reads digits from the left and
    gives up at the first byte that is no digit, or where the value is too large.  [None]:
    it does not fail. *)
Inductive num_reason := NumSyntax | NumRange.
Fixpoint uint_scan (acc : Z) (s : str) : option num_reason :=
  match s with
  | [] => None
  | c :: t => match digit_val c with
              | None => Some NumSyntax
              | Some d => let v := (acc * 10 + d)%Z in
                          if (v <=? 2 ^ 64 - 1)%Z then uint_scan v t else Some NumRange
              end
  end.
Definition uint_reason (s : str) : num_reason :=
  match s with
  | [] => NumSyntax
  | _ => match uint_scan 0 s with Some r => r | None => NumSyntax end
  end.
(** [(&NumError{"ParseUint", s, err}).Error()]. *)
Definition uint_error (s : str) : str :=
  lit "strconv.ParseUint: parsing " ++ go_quote s
  ++ match uint_reason s with
     | NumSyntax => lit ": invalid syntax"
     | NumRange => lit ": value out of range"
     end.

(** ** Values *)

(** JSON.go:524-669.  The messages after the second ParseInt and ParseUint calls (10, 8
    and so on) are left out: these calls succeed when the first does. *)
Definition number_says (s : str) : list str :=
  let minus := count_byte c_min s in
  let dots := count_byte c_dot s in
  let errs :=
    (match minus with
     | 0 => []
     | 1 => if has_prefix [c_min] s then []
            else [lit "error: negative symbol is not at the start of the number"]
     | _ => [lit "error: value contained " ++ say_int minus ++ lit " negative symbols expected 1"]
     end) ++
    (match dots with
     | 0 | 1 => []
     | _ => [lit "error: value contained " ++ say_int dots ++ lit " decimal points expected 1"]
     end) in
  match errs with
  | _ :: _ => errs
  | [] =>
      if Nat.eqb dots 1 then
        match parse_float F64 s with
        | None => [lit "error: strconv.ParseFloat(*string_value, 64) error"]
        | Some _ => []
        end
      else if Nat.eqb minus 1 then
        match parse_int 64 s with
        | None => [lit "error: strconv.ParseInt(*string_value, 10, 64) error"]
        | Some _ => []
        end
      else
        match parse_uint 64 s with
        | None => [lit "error: strconv.ParseUint(*string_value, 10, 64) error " ++ uint_error s]
        | Some _ => []
        end
  end.

(** JSON.go:503-523. *)
Definition scalar_says (v : str) : list str :=
  let s := strip_token v in
  if str_eqb s (lit "true") || str_eqb s (lit "false") || str_eqb s (lit "null") || str_eqb s [] then []
  else number_says s.

(** JSON.go:462-500. *)
Definition value_text_says (is_map : bool) (key value : str) : res (list str) :=
  let k := clean key in
  let v := clean value in
  ke <-r (if is_map then
            if is_quoted k then
              match slice_inner k with Some _ => Ok [] | None => Panic end
            else Ok [lit "error: key does not start with  "" and/or end with "" key: '" ++ k ++ lit "'"]
          else Ok []) ;;
  ve <-r (if contains_byte c_dq v then
            if is_quoted v then
              match slice_inner v with Some _ => Ok (true, []) | None => Panic end
            else Ok (false, [lit "error: value does not start with  "" and/or end with "" value: '" ++ v ++ lit "'"])
          else Ok (false, [])) ;;
  match ke ++ snd ve with
  | (_ :: _) as e => Ok e
  | [] => Ok (if fst ve then [] else scalar_says v)
  end.

(** parseJSONValue, JSON.go:449-767.  Storing the value (JSON.go:682-760) adds no message
    in a reachable state. *)
Definition parseJSONValue_says (X : ext) (key value : str) (ls : list loc) (h : heap) : res (list str) :=
  match ls with
  | [] => Ok [lit "error: list is empty"]
  | v :: _ =>
      is_map <-r value_is common_IsMap X h v ;;
      value_text_says is_map key value
  end.

(** unquote_key_value, JSON.go:127-140. *)
Definition unquote_key_says (k : str) : res (list str) :=
  if is_quoted k then
    match slice_inner k with Some _ => Ok [] | None => Panic end
  else Ok [lit "error: key does not start with  "" or end with """].

(** JSON.go:290-312,366-388. *)
Definition attach_says (X : ext) (ls : list loc) (tk : str) (h : heap) : res (list str) :=
  match ls with
  | [] => Ok []
  | v :: _ =>
      is_map <-r value_is common_IsMap X h v ;;
      if is_map then unquote_key_says tk else Ok []
  end.

(** ** The stack machine *)

(** JSON.go:338-360,399-438. *)
Definition end_says (X : ext) (st : pst) (h : heap) : res (list str) :=
  parseJSONValue_says X (p_tk st) (p_tv st) (p_list st) h.

(** JSON.go:221-444. *)
Definition step_mode_says (X : ext) (b : ascii) (st : pst) (h : heap) : res (list str) :=
  match p_mode st with
  | MKeys | MKeyName | MColumn => Ok []
  | MValue | MNext =>
      if match p_mode st with MNext => true | _ => false end
         && (Ascii.eqb b c_sp || Ascii.eqb b c_nl || Ascii.eqb b c_cr
             || Ascii.eqb b c_bs || Ascii.eqb b c_tab)
      then Ok []
      else if negb (p_ps st) then
        if Ascii.eqb b c_lb || Ascii.eqb b c_ls then attach_says X (p_list st) (p_tk st) h
        else if Ascii.eqb b c_rb || Ascii.eqb b c_rs || Ascii.eqb b c_com then end_says X st h
        else Ok []
      else Ok []
  end.

(** One iteration, JSON.go:160-445. *)
Definition step_says (X : ext) (prev : option ascii) (b : ascii) (st : pst) (h : heap) : res (list str) :=
  let q := Ascii.eqb b c_dq
           && match prev with Some p => negb (Ascii.eqb p c_bs) | None => true end in
  if negb (p_ps st) then step_mode_says X b (set_ps q (p_cnt st) st) h
  else if q then
    match p_mode st with
    | MValue | MNext => end_says X (add_val (utf8_of_byte b) st) h
    | _ => Ok []
    end
  else step_mode_says X b st h.

(** The loop, with the messages so far. *)
Fixpoint loop_says (X : ext) (prev : option ascii) (s : str) (st : pst) (ms : list str) : M (pst * list str) :=
  match s with
  | [] => ret (st, ms)
  | b :: t =>
      m <- mlift (step_says X prev b st) ;;
      st' <- step X prev b st ;;
      loop_says X (Some b) t st' (ms ++ m)
  end.

(** Parse, JSON.go:28-125: the map (nil when there are errors) and the texts of the errors. *)
Definition Parse_says (X : ext) (s : str) : M (option loc * list str) :=
  let pre := (match s with [] => [lit "error: value empty string"] | _ => [] end)
             ++ (if has_prefix [c_lb] s then [] else [lit "error: json does not start with {"])
             ++ (if has_suffix [c_rb] s then [] else [lit "error: json does not end with }"]) in
  match pre with
  | _ :: _ => ret (None, pre)
  | [] =>
      if str_eqb s (lit "{}") then m <- new_map ;; ret (Some m, [])
      else
        q <- loop_says X None s pst0 [] ;;
        match snd q with
        | _ :: _ => ret (None, snd q)
        | [] =>
            let c := p_cnt (fst q) in
            let post :=
              (if Nat.eqb (n_lb c) (n_rb c) then []
               else [lit "error: opening and closing brackets {} do not match, opening: " ++ say_int (n_lb c)
                     ++ lit " closing: " ++ say_int (n_rb c)])
              ++ (if Nat.eqb (n_ls c) (n_rs c) then []
                  else [lit "error: opening and closing squares [] do not match, opening: " ++ say_int (n_ls c)
                        ++ lit " closing: " ++ say_int (n_rs c)])
              ++ (if Nat.eqb (n_oq c) (n_cq c) then []
                  else [lit "error: opening and closing quotes do not match, opening: " ++ say_int (n_oq c)
                        ++ lit " closing: " ++ say_int (n_cq c)]) in
            match post with
            | _ :: _ => ret (None, post)
            | [] => ret (p_root (fst q), [])
            end
        end
  end.
