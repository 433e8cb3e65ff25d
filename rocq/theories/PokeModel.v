(** * Programs that write into the slice behind GetValues (/repo/json/Array.go)

    GetValues (Array.go:420-422) returns a pointer to the slice [values] of Array.go:93-95, so
    a program can copy the slice, write its elements, append to the copy, and assign a slice
    through the pointer.  ElemSlice.v has the methods of the array; this file adds the
    statements of the program.  Slices start at the beginning of their backing arrays
    ([s = s[i:]] with i > 0 is not modelled). *)
From Coq Require Import List ZArith Bool Arith.
From Verif Require Import GoStr Heap KeysSlice ElemSlice.
Import ListNotations.

(** An array and the slice variables of the program. *)
Record desk := Desk { d_array : elems; d_held : list slice }.
Definition d_content (D : desk) : list (option nat) := e_content (d_array D).
Definition d_shows (D : desk) (s : slice) : list (option nat) := v_content (e_mem (d_array D)) s.

Inductive stmt :=
| PCall (o : eop)                             (* a method of the array *)
| PCopy                                       (* s := the slice behind GetValues, a new variable *)
| PMake (l : list (option nat))               (* s := a slice of its own with these elements *)
| PCut (k n : nat)                            (* s = s[:n] *)
| PSet (k n : nat) (x : option nat)           (* s[n] = x *)
| PAppend (k : nat) (x : option nat)          (* s = append(s, x) *)
| PStore (k : nat).                           (* the slice behind GetValues = s *)

(** One statement; [None] is a run-time panic or a variable that is not there. *)
Definition p_step (grow : vmem -> nat) (o : stmt) (D : desk) : option desk :=
  let E := d_array D in
  match o with
  | PCall o => Some (Desk (e_step grow o E) (d_held D))
  | PCopy => Some (Desk E (d_held D ++ [e_values E]))
  | PMake l => Some (Desk (Elems (e_mem E ++ [l]) (e_values E)) (d_held D ++ [Slice (length (e_mem E)) (length l) (length l)]))
  | PCut k n =>
      match nth_error (d_held D) k with
      | Some s => if Nat.leb n (s_cap s) then Some (Desk E (upd (d_held D) k (Slice (s_base s) n (s_cap s)))) else None
      | None => None
      end
  | PSet k n x =>
      match nth_error (d_held D) k with
      | Some s => if Nat.ltb n (s_len s)
                  then Some (Desk (Elems (upd (e_mem E) (s_base s) (upd (nth (s_base s) (e_mem E) []) n x)) (e_values E)) (d_held D))
                  else None
      | None => None
      end
  | PAppend k x =>
      match nth_error (d_held D) k with
      | Some s => let (mem, s') := v_append grow (e_mem E) s [x] in Some (Desk (Elems mem (e_values E)) (upd (d_held D) k s'))
      | None => None
      end
  | PStore k =>
      match nth_error (d_held D) k with
      | Some s => Some (Desk (Elems (e_mem E) s) (d_held D))
      | None => None
      end
  end.
Fixpoint p_run (grow : vmem -> nat) (ps : list stmt) (D : desk) : option desk :=
  match ps with
  | [] => Some D
  | o :: t => match p_step grow o D with Some D' => p_run grow t D' | None => None end
  end.
(** A new array, Array.go:93-95. *)
Definition p_new : desk := Desk e_new [].
