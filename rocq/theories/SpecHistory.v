(** * Specification: what a program can do after some point *)
From Coq Require Import Ascii String List NArith ZArith Bool.
From Verif Require Import GoStr GoNum GoFloat Heap Common ValueModel ArrayModel MapModel JsonModel ParserModel
  SpecDict SpecWorld Inv World Reach SpecDoc SpecParse SpecClone.
Import ListNotations.

(** Objects made between the states [h] and [h']. *)
Definition made_in (h h' : heap) : nat -> Prop := fun l => (length h <= l < length h')%nat.

(** The object a Clone starts from exists. *)
Definition exists_in (h : heap) (k : ckind) (l : nat) : Prop :=
  match k with
  | KMap => has (w_map (view h)) l
  | KArr => has (w_arr (view h)) l
  | KVal => has (w_val (view h)) l
  end.

(** The map, array or value [l] has the content [k], and uses objects of [F] only. *)
Definition content_at (h : heap) (F : nat -> Prop) (kd : ckind) (l : nat) (k : content) : Prop :=
  match kd with
  | KMap => holds_obj (view h) F (IMap l) k
  | KArr => holds_obj (view h) F (IArr l) k
  | KVal => holds_value (view h) F (Some l) k
  end.

(** From the map, array or value [l] no value, map, array or variable can be found by
    two paths. *)
Definition tree_at (h : heap) (kd : ckind) (l : nat) : Prop :=
  match kd with
  | KVal => forall i c, w_val (view h) l = Some i -> refers i = Some c -> no_sharing (view h) c
  | _ => no_sharing (view h) l
  end.

(** No map or array found from [l] contains itself; some map or array does. *)
Definition acyclic_at (h : heap) (kd : ckind) (l : nat) : Prop :=
  match kd with
  | KVal => forall i c, w_val (view h) l = Some i -> refers i = Some c -> acyclic (view h) c
  | _ => acyclic (view h) l
  end.
Definition cyclic_at (h : heap) (kd : ckind) (l : nat) : Prop :=
  let has_cycle c := exists p x q, object_at (view h) c p x /\ object_at (view h) x q x /\ q <> [] in
  match kd with
  | KVal => exists i c, w_val (view h) l = Some i /\ refers i = Some c /\ has_cycle c
  | _ => has_cycle l
  end.

(** From [h] the program reaches [h'] by calls of the API, Parse and Clone, no call
    changing an object of [F].  (ToJSONString and the getters change nothing.) *)
Inductive history (X : ext) (F : nat -> Prop) : heap -> heap -> Prop :=
| hi_done h : history X F h h
| hi_call h c o h1 h2 :
    ok_call (view h) c -> (forall t, target c = Some t -> ~ F t) -> run_call c h = Ok (o, h1) ->
    history X F h1 h2 -> history X F h h2
| hi_parse h s r h1 h2 : Parse X s h = Ok (r, h1) -> history X F h1 h2 -> history X F h h2
| hi_clone h n k l r h1 h2 :
    exists_in h k l -> clone n X k l h = Ok (r, h1) -> history X F h1 h2 -> history X F h h2.
