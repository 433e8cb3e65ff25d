(** * Several goroutines setting keys of one map (/repo/json/Map.go)

    setInternalValue split into its accesses to the variables the goroutines share.
    The accesses themselves are taken to be atomic; what the Go runtime does with a
    data race beyond that is not modelled. *)
From Coq Require Import Ascii String List NArith ZArith Bool.
From Verif Require Import GoStr Heap MapModel SpecDict.
Import ListNotations.

(** [internal_map], [internal_keys] and the slice in [internal_keys_obj],
    Map.go:172-174. *)
Record shared := Shared {
  c_tbl : list (str * option loc); c_keys : list str; c_vals : list (option loc) }.

(** Where a goroutine is inside setInternalValue(s, v), Map.go:239-247, with what it
    has read. *)
Inductive pc :=
| CStart                                   (* hasKey(s), len(getKeys()) *)
| CReadKeys | CWriteKeys (l : list str)    (* internal_keys = append(internal_keys, s) *)
| CReadVals | CWriteVals (l : list (option loc)) (* AppendValue(v), Array.go:416-419 *)
| CFind | CSetVal (i : nat)                (* findIndexOfKey, SetValueAtIndex *)
| CWriteTbl                                (* internal_map[s] = v *)
| CDone.

Definition conc_step (k : str) (v : option loc) (p : pc) (s : shared) : pc * shared :=
  match p with
  | CStart =>
      (if negb (match tbl_get (c_tbl s) k with Some _ => true | None => false end)
          || match c_keys s with [] => true | _ => false end
       then CReadKeys else CFind, s)
  | CReadKeys => (CWriteKeys (c_keys s ++ [k]), s)
  | CWriteKeys l => (CReadVals, Shared (c_tbl s) l (c_vals s))
  | CReadVals => (CWriteVals (c_vals s ++ [v]), s)
  | CWriteVals l => (CWriteTbl, Shared (c_tbl s) (c_keys s) l)
  | CFind => (match find_index k (c_keys s) with Some i => CSetVal i | None => CWriteTbl end, s)
  | CSetVal i => (CWriteTbl, Shared (c_tbl s) (c_keys s) (upd (c_vals s) i v))
  | CWriteTbl => (CDone, Shared (tbl_put (c_tbl s) k v) (c_keys s) (c_vals s))
  | CDone => (CDone, s)
  end.

(** The goroutines: what each sets and where it is. *)
Record thread := Thread { th_key : str; th_val : option loc; th_pc : pc }.
Definition spawn (kv : str * option loc) : thread := Thread (fst kv) (snd kv) CStart.

(** One access by goroutine [n]. *)
Definition sched_step (n : nat) (st : list thread * shared) : list thread * shared :=
  match nth_error (fst st) n with
  | None => st
  | Some t => let (p, s) := conc_step (th_key t) (th_val t) (th_pc t) (snd st) in
              (upd (fst st) n (Thread (th_key t) (th_val t) p), s)
  end.

(** A schedule names the goroutine that makes each next access. *)
Definition run_sched (ns : list nat) (st : list thread * shared) : list thread * shared :=
  fold_left (fun st n => sched_step n st) ns st.
