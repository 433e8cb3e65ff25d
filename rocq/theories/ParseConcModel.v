(** * Parse calls running in several goroutines (/repo/json/JSON.go)

    Parse keeps all it works with in local variables and in objects it creates
    (JSON.go:50-67, 145-158), so a goroutine inside Parse is described by the values
    of those variables.  The calls are interleaved between iterations of the loop
    over the bytes (JSON.go:160-445): an iteration is one step.  What the Go runtime
    does when two goroutines use the same variable at the same time is not modelled;
    PropParseConc.v proves that the steps of different calls change different
    objects. *)
From Coq Require Import Ascii String List NArith ZArith Bool.
From Verif Require Import GoStr GoNum GoFloat Heap Common ValueModel ArrayModel MapModel ParserModel
  SpecWorld World Reach.
Import ListNotations.

(** Where a goroutine is inside Parse(s). *)
Inductive pth :=
| PStart (s : str)
| PLoop (s : str) (prev : option ascii) (rest : str) (st : pst)  (* bytes still to read *)
| PDone (s : str) (r : gres (option loc)).

Definition parsing (t : pth) : str :=
  match t with PStart s | PLoop s _ _ _ | PDone s _ => s end.
Definition done (t : pth) : bool := match t with PDone _ _ => true | _ => false end.

(** The checks before the loop, JSON.go:29-44. *)
Definition before_loop (s : str) : list err :=
  (match s with [] => [EEmpty] | _ => [] end)
  ++ (if has_prefix [c_lb] s then [] else [ENoOpen])
  ++ (if has_suffix [c_rb] s then [] else [ENoClose]).

(** The checks after the loop, JSON.go:70-125; the counters are fields, as in ParserModel.v. *)
Definition after_loop (st : pst) : gres (option loc) :=
  match p_errs st with
  | _ :: _ => GErr (p_errs st)
  | [] =>
      let c := p_cnt st in
      let post := (if Nat.eqb (n_lb c) (n_rb c) then [] else [EBrackets])
                  ++ (if Nat.eqb (n_ls c) (n_rs c) then [] else [ESquares])
                  ++ (if Nat.eqb (n_oq c) (n_cq c) then [] else [EQuotes]) in
      match post with _ :: _ => GErr post | [] => GVal (p_root st) end
  end.

(** One step of Parse, JSON.go:28-125 and 160-445. *)
Definition pstep (X : ext) (t : pth) : M pth :=
  match t with
  | PStart s =>
      match before_loop s with
      | (_ :: _) as e => ret (PDone s (GErr e))
      | [] => if str_eqb s (lit "{}") then m <- new_map ;; ret (PDone s (GVal (Some m)))
              else ret (PLoop s None s pst0)
      end
  | PLoop s prev [] st => ret (PDone s (after_loop st))
  | PLoop s prev (b :: rest) st => st' <- step X prev b st ;; ret (PLoop s (Some b) rest st')
  | PDone _ _ => ret t
  end.

(** A goroutine running alone. *)
Fixpoint run_alone (X : ext) (n : nat) (t : pth) : M pth :=
  match n with
  | O => ret t
  | S n' => t' <- pstep X t ;; run_alone X n' t'
  end.

(** The object a call of the API changes, if any.  Calls that only read or create
    objects have none. *)
Definition target (c : api) : option nat :=
  match c with
  | AVarSet p _ => Some p
  | AMapSetValue m _ _ | AMapSet m _ _ | AMapSetScalarValue m _ _ | AMapRemoveKey m _ => Some m
  | AArrAppendValue a _ | AArrAppend a _ | AArrSetValueAtIndex a _ _ | AArrRemoveValueAtIndex a _ => Some a
  | AValSetObject v _ => Some v
  | _ => None
  end.

(** A program: its memory, the goroutines that called Parse, and for each object the
    Parse call that created it, if one did. *)
Record conf := Conf { c_heap : heap; c_ths : list pth; c_by : nat -> option nat }.

Definition mark (by_ : nat -> option nat) (i : nat) (h h' : heap) : nat -> option nat :=
  fun l => if Nat.leb (length h) l && Nat.ltb l (length h') then Some i else by_ l.

(** The program starts Parse calls, makes any other calls of the API, and its
    goroutines take steps, in any order.  A call does not change an object that a
    Parse call created and has not returned yet: nobody else knows of it. *)
Inductive event := EvGo (s : str) | EvStep (i : nat) | EvCall (c : api).
Inductive cstep (X : ext) : conf -> event -> conf -> Prop :=
| c_go h ts by_ s : cstep X (Conf h ts by_) (EvGo s) (Conf h (ts ++ [PStart s]) by_)
| c_step h ts by_ i t t' h' :
    nth_error ts i = Some t -> pstep X t h = Ok (t', h') ->
    cstep X (Conf h ts by_) (EvStep i) (Conf h' (upd ts i t') (mark by_ i h h'))
| c_call h ts by_ c o h' :
    ok_call (view h) c -> run_call c h = Ok (o, h') ->
    (forall l i t, target c = Some l -> by_ l = Some i -> nth_error ts i = Some t -> done t = true) ->
    cstep X (Conf h ts by_) (EvCall c) (Conf h' ts by_).

Inductive runs (X : ext) : conf -> list event -> conf -> Prop :=
| r_nil C : runs X C [] C
| r_snoc C es C1 e C2 : runs X C es C1 -> cstep X C1 e C2 -> runs X C (es ++ [e]) C2.

(** A program that has not called Parse concurrently yet. *)
Definition conf0 (h : heap) : conf := Conf h [] (fun _ => None).
