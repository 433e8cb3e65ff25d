(** * The parser as a machine on trees

    A proof device: the stack machine of ParserModel.v with the containers under
    construction held in the stack instead of the heap.  ParseRefine.v proves
    that the heap machine computes exactly this. *)
From Coq Require Import Ascii String List NArith ZArith Bool.
From Verif Require Import GoStr GoNum GoFloat Heap Common ValueModel ArrayModel MapModel ParserModel
  SpecDict SpecDoc.
Import ListNotations.

(** A container under construction, and how it is attached to the one below it. *)
Inductive frame := FMap (es : list (str * doc)) | FArr (ds : list doc).
Inductive att := AKey (k : str) | AElem | ANone.

Definition close (f : frame) : doc := match f with FMap es => DMap es | FArr ds => DArr ds end.
Definition is_fmap (f : frame) : bool := match f with FMap _ => true | FArr _ => false end.

Inductive root := RNone | ROpen | RDone (d : doc).

Record tst := TSt {
  t_mode : pmode; t_ps : bool; t_tk : str; t_tv : str;
  t_stk : list (frame * att); t_root : root; t_cnt : counts; t_errs : list err }.

Definition tst0 : tst := TSt MValue false [] [] [] RNone counts0 [].

Definition doc_of (p : payload) : option doc :=
  match p with PEmpty => None | PNull => Some DNull | PScal s => Some (DScal s) end.

Definition put_doc (k : str) (od : option doc) (f : frame) : frame :=
  match od with
  | None => f
  | Some d => match f with FMap es => FMap (dict_set es k d) | FArr ds => FArr (ds ++ [d]) end
  end.

Definition put_top (k : str) (od : option doc) (stk : list (frame * att)) : list (frame * att) :=
  match stk with [] => [] | (f, a) :: t => (put_doc k od f, a) :: t end.

Definition t_value (key value : str) (stk : list (frame * att)) : res (list (frame * att) * list err) :=
  match stk with
  | [] => Ok ([], [EListEmpty])
  | (f, _) :: _ =>
      r <-r value_text (is_fmap f) key value ;;
      match r with
      | GErr e => Ok (stk, e)
      | GVal (k, p) => Ok (put_top k (doc_of p) stk, [])
      end
  end.

Definition t_next (mode : pmode) (stk : list (frame * att)) : pmode :=
  match stk with [] => mode | (f, _) :: _ => if is_fmap f then MKeys else MNext end.

(** Put a closed container where it was attached. *)
Definition att_put (a : att) (d : doc) (f : frame) : frame :=
  match a with
  | AKey k => put_doc k (Some d) f
  | AElem => put_doc [] (Some d) f
  | ANone => f
  end.

Definition close_root (f : frame) (r : root) : root :=
  match r with ROpen => RDone (close f) | _ => r end.

(** Remove the top container. *)
Definition t_pop (stk : list (frame * att)) (r : root) : res (list (frame * att) * root) :=
  match stk with
  | [] => Panic
  | [(f, a)] => Ok ([], close_root f r)
  | (f, a) :: (g, b) :: t => Ok ((att_put a (close f) g, b) :: t, r)
  end.

Definition t_attach (tk : str) (stk : list (frame * att)) : res (att * list err) :=
  match stk with
  | [] => Ok (ANone, [])
  | (f, _) :: _ =>
      if is_fmap f then
        u <-r unquote_key tk ;;
        match u with GErr e => Ok (ANone, e) | GVal k => Ok (AKey k, []) end
      else Ok (AElem, [])
  end.

Definition t_end (pop : bool) (st : tst) : res tst :=
  q <-r t_value (t_tk st) (t_tv st) (t_stk st) ;;
  l <-r (if pop then t_pop (fst q) (t_root st) else Ok (fst q, t_root st)) ;;
  Ok (TSt (t_next (t_mode st) (fst l)) (t_ps st) [] [] (fst l) (snd l) (t_cnt st) (t_errs st ++ snd q)).

Definition t_open_map (st : tst) : res tst :=
  q <-r t_attach (t_tk st) (t_stk st) ;;
  Ok (TSt MKeys (t_ps st) [] [] ((FMap [], fst q) :: t_stk st)
        (match t_root st with RNone => ROpen | r => r end) (t_cnt st) (t_errs st ++ snd q)).

Definition t_open_array (st : tst) : res tst :=
  match t_stk st with
  | [] => Panic
  | _ => q <-r t_attach (t_tk st) (t_stk st) ;;
         Ok (TSt MNext (t_ps st) [] [] ((FArr [], fst q) :: t_stk st) (t_root st) (t_cnt st)
               (t_errs st ++ snd q))
  end.

Definition t_close_keys (st : tst) : res tst :=
  l <-r t_pop (t_stk st) (t_root st) ;;
  Ok (TSt (t_next (t_mode st) (fst l)) (t_ps st) [] [] (fst l) (snd l) (t_cnt st) (t_errs st)).

Definition t_set_mode (m : pmode) (st : tst) : tst :=
  TSt m (t_ps st) (t_tk st) (t_tv st) (t_stk st) (t_root st) (t_cnt st) (t_errs st).
Definition t_add_key (s : str) (st : tst) : tst :=
  TSt (t_mode st) (t_ps st) (t_tk st ++ s) (t_tv st) (t_stk st) (t_root st) (t_cnt st) (t_errs st).
Definition t_add_val (s : str) (st : tst) : tst :=
  TSt (t_mode st) (t_ps st) (t_tk st) (t_tv st ++ s) (t_stk st) (t_root st) (t_cnt st) (t_errs st).
Definition t_set_ps (ps : bool) (c : counts) (st : tst) : tst :=
  TSt (t_mode st) ps (t_tk st) (t_tv st) (t_stk st) (t_root st) c (t_errs st).

Definition t_step_mode (q : bool) (b : ascii) (st : tst) : res tst :=
  match t_mode st with
  | MKeys =>
      if Ascii.eqb b c_rb then t_close_keys st
      else if q then Ok (t_add_key (utf8_of_byte b) (t_set_mode MKeyName st))
      else Ok st
  | MKeyName =>
      Ok (t_add_key (utf8_of_byte b) (if q then t_set_mode MColumn st else st))
  | MColumn =>
      Ok (if Ascii.eqb b c_col then t_set_mode MNext st else st)
  | MValue | MNext =>
      if match t_mode st with MNext => true | _ => false end
         && (Ascii.eqb b c_sp || Ascii.eqb b c_nl || Ascii.eqb b c_cr
             || Ascii.eqb b c_bs || Ascii.eqb b c_tab)
      then Ok st
      else
        let st := t_set_mode MValue st in
        if negb (t_ps st) then
          if Ascii.eqb b c_lb then t_open_map st
          else if Ascii.eqb b c_rb then t_end true st
          else if Ascii.eqb b c_ls then t_open_array st
          else if Ascii.eqb b c_rs then t_end true st
          else if Ascii.eqb b c_com then t_end false st
          else Ok (t_add_val (utf8_of_byte b) st)
        else Ok (t_add_val (utf8_of_byte b) st)
  end.

Definition t_step (prev : option ascii) (b : ascii) (st : tst) : res tst :=
  let q := Ascii.eqb b c_dq
           && match prev with Some p => negb (Ascii.eqb p c_bs) | None => true end in
  if negb (t_ps st) then
    if q then t_step_mode q b (t_set_ps true (count_open (t_cnt st)) st)
    else t_step_mode q b (t_set_ps false (count_bracket b (t_cnt st)) st)
  else if q then
    let st := t_set_ps false (count_close (t_cnt st)) st in
    match t_mode st with
    | MValue | MNext => t_end false (t_add_val (utf8_of_byte b) st)
    | _ => t_step_mode q b st
    end
  else t_step_mode q b st.

Fixpoint t_loop (prev : option ascii) (s : str) (st : tst) : res tst :=
  match s with
  | [] => Ok st
  | b :: t => st' <-r t_step prev b st ;; t_loop (Some b) t st'
  end.

(** Close everything that is still open; [up] is what the part above the stack
    does to its top. *)
Fixpoint close_all (up : frame -> frame) (stk : list (frame * att)) (r : root) : root :=
  match stk with
  | [] => r
  | (f, a) :: t =>
      match t with
      | [] => close_root (up f) r
      | _ => close_all (att_put a (close (up f))) t r
      end
  end.
Definition collapse (stk : list (frame * att)) (r : root) : root := close_all (fun f => f) stk r.

(** The checks made before and after the loop (JSON.go:29-44,67-123). *)
Definition pre_errs (s : str) : list err :=
  (match s with [] => [EEmpty] | _ => [] end)
  ++ (if has_prefix [c_lb] s then [] else [ENoOpen])
  ++ (if has_suffix [c_rb] s then [] else [ENoClose]).
Definition post_errs (c : counts) : list err :=
  (if Nat.eqb (n_lb c) (n_rb c) then [] else [EBrackets])
  ++ (if Nat.eqb (n_ls c) (n_rs c) then [] else [ESquares])
  ++ (if Nat.eqb (n_oq c) (n_cq c) then [] else [EQuotes]).

Definition root_doc (r : root) : option doc := match r with RDone d => Some d | _ => None end.

Definition tparse (s : str) : res (gres (option doc)) :=
  match pre_errs s with
  | (_ :: _) as e => Ok (GErr e)
  | [] =>
      if str_eqb s (lit "{}") then Ok (GVal (Some (DMap [])))
      else
        st <-r t_loop None s tst0 ;;
        match t_errs st with
        | (_ :: _) as e => Ok (GErr e)
        | [] => match post_errs (t_cnt st) with
                | (_ :: _) as e => Ok (GErr e)
                | [] => Ok (GVal (root_doc (collapse (t_stk st) (t_root st))))
                end
        end
  end.
