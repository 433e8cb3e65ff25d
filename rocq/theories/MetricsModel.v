(** * The metrics map of Parse

    ParserModel.v keeps the six counters of Parse as numbers; this file has the code,
    which keeps them in a json.Map. *)
From Coq Require Import Ascii String List NArith ZArith Bool.
From Verif Require Import GoStr GoNum GoFloat Heap Common ValueModel ArrayModel MapModel GetterModel PtrModel ParserModel.
Import ListNotations.

(** *p++ for an int, JSON.go:177,183,190,197,204,215; wraps at the largest int. *)
Definition incr_int (X : ext) (p : loc) : M unit :=
  fun h =>
    match nth_error h p with
    | Some (CPtr (SInt KInt z)) =>
        wr p (CPtr (SInt KInt (if (z =? int_max (x_is64 X) KInt)%Z then int_min (x_is64 X) KInt else z + 1))) h
    | _ => Stuck
    end.

(** count, errors := m.GetInt(k); [if errors != nil { return nil, errors };] *count++;
    m.SetInt(k, count), JSON.go:173-178,182-184,189-191,196-198,203-205,211-216.  The
    errors are returned for the quotes ([checked]) and dropped for the brackets, where the
    nil pointer is then dereferenced. *)
Definition bump (X : ext) (checked : bool) (m : loc) (k : str) : M (list err) :=
  r <- map_ptr (TyInt KInt) X m k ;;
  match r with
  | GErr e => if checked then ret e else fun _ => Panic
  | GVal None => fun _ => Panic
  | GVal (Some p) => incr_int X p ;; map_SetObject m k (IPtr (TyInt KInt) (Some p)) ;; ret []
  end.

Definition k_open : str := lit "opening_quote".
Definition k_close : str := lit "closing_quote".

(** x := 0; m.SetInt(k, &x), JSON.go:52-63. *)
Definition zero_int (m : loc) (k : str) : M unit :=
  p <- alloc (CPtr (SInt KInt 0)) ;; map_SetObject m k (IPtr (TyInt KInt) (Some p)).
(** JSON.go:51-63. *)
Definition new_metrics : M loc :=
  m <- new_map ;;
  zero_int m [c_lb] ;; zero_int m [c_rb] ;; zero_int m [c_ls] ;; zero_int m [c_rs] ;;
  zero_int m k_open ;; zero_int m k_close ;; ret m.

(** The metrics part of one iteration of the loop, JSON.go:162-217; [ps] is
    parsing_string.  Returns the new parsing_string and the errors of GetInt. *)
Definition tick (X : ext) (m : loc) (prev : option ascii) (ps : bool) (b : ascii) : M (bool * list err) :=
  let q := Ascii.eqb b c_dq && match prev with Some p => negb (Ascii.eqb p c_bs) | None => true end in
  if negb ps then
    if q then e <- bump X true m k_open ;; ret (true, e)
    else if Ascii.eqb b c_lb || Ascii.eqb b c_rb || Ascii.eqb b c_ls || Ascii.eqb b c_rs
    then e <- bump X false m [b] ;; ret (false, e)
    else ret (false, [])
  else if q then e <- bump X true m k_close ;; ret (false, e)
  else ret (true, []).

(** Any sequence of increments, stopped by errors. *)
Fixpoint bumps (X : ext) (m : loc) (l : list (bool * str)) : M (list err) :=
  match l with
  | [] => ret []
  | (c, k) :: t => e <- bump X c m k ;; match e with [] => bumps X m t | _ => ret e end
  end.

(** The loop of parseJSONMap with the metrics map, JSON.go:160-445: the counters first,
    then the rest of the iteration, [step].  Simplification: [step] also updates the
    numbers [p_cnt] of ParserModel.v, which nothing here reads.  The errors of GetInt end
    the loop, JSON.go:174-176,212-214. *)
Fixpoint loop_metrics (X : ext) (m : loc) (prev : option ascii) (s : str) (st : pst) : M (gres pst) :=
  match s with
  | [] => ret (GVal st)
  | b :: t =>
      r <- tick X m prev (p_ps st) b ;;
      match snd r with
      | [] => st' <- step X prev b st ;; loop_metrics X m (Some b) t st'
      | e => ret (GErr e)
      end
  end.

Definition errs_of {A} (r : gres A) : list err := match r with GErr e => e | GVal _ => [] end.
(** [*p] of a pointer returned by GetInt. *)
Definition int_at (r : gres (option loc)) : M Z :=
  fun h =>
    match r with
    | GVal (Some p) => match nth_error h p with Some (CPtr (SInt KInt z)) => Ok (z, h) | _ => Stuck end
    | _ => Panic
    end.

(** Parse, JSON.go:28-125, with the metrics map. *)
Definition Parse_metrics (X : ext) (s : str) : M (gres (option loc)) :=
  let pre := (match s with [] => [EEmpty] | _ => [] end)
             ++ (if has_prefix [c_lb] s then [] else [ENoOpen])
             ++ (if has_suffix [c_rb] s then [] else [ENoClose]) in
  match pre with
  | _ :: _ => ret (GErr pre)
  | [] =>
      if str_eqb s (lit "{}") then m <- new_map ;; ret (GVal (Some m))
      else
        m <- new_metrics ;;
        r <- loop_metrics X m None s pst0 ;;
        c1 <- map_ptr (TyInt KInt) X m [c_lb] ;;
        c2 <- map_ptr (TyInt KInt) X m [c_rb] ;;
        c3 <- map_ptr (TyInt KInt) X m [c_ls] ;;
        c4 <- map_ptr (TyInt KInt) X m [c_rs] ;;
        c5 <- map_ptr (TyInt KInt) X m k_open ;;
        c6 <- map_ptr (TyInt KInt) X m k_close ;;
        match errs_of c1 ++ errs_of c2 ++ errs_of c3 ++ errs_of c4 ++ errs_of c5 ++ errs_of c6
              ++ match r with GErr e => e | GVal st => p_errs st end with
        | (_ :: _) as e => ret (GErr e)
        | [] =>
            n1 <- int_at c1 ;; n2 <- int_at c2 ;; n3 <- int_at c3 ;;
            n4 <- int_at c4 ;; n5 <- int_at c5 ;; n6 <- int_at c6 ;;
            match (if (n1 =? n2)%Z then [] else [EBrackets]) ++ (if (n3 =? n4)%Z then [] else [ESquares])
                  ++ (if (n5 =? n6)%Z then [] else [EQuotes]) with
            | (_ :: _) as e => ret (GErr e)
            | [] => match r with GVal st => ret (GVal (p_root st)) | GErr _ => ret (GVal None) end
            end
        end
  end.
