(** * C95: the clone of a map that lists other names than it holds *)
From Coq Require Import Ascii String List NArith ZArith Bool.
From Verif Require Import GoStr GoNum GoFloat Heap Common ValueModel ArrayModel MapModel JsonModel
  SpecDict SpecWorld SpecValues World Reach ExampleState SpecRelabel RelabelModel SpecHanded HandedModel SpecReclone RecloneTop.
Import ListNotations.
Open Scope nat_scope.

(** In every state whatsoever, Clone of a value, map or array changes nothing that is there. *)
Theorem c95_adds : forall X n kd l h r h', clone n X kd l h = Ok (r, h') -> exists t, h' = h ++ t.
Proof. exact reclone_adds. Qed.

(** After a program that also writes into slices of keys and changes lists of values: a clone of a map lists every name
    that the original lists once, at its first place, and holds exactly what it lists.  Its list of values has the
    values under the names, in their order. *)
Theorem c95_names : forall X h ss,
  reachable X h -> ok_deeds ss (view h) (names_of (view h)) (lists_of (view h)) ->
  forall os os2 h1 h2, run_deeds ss h = Ok (os, h1) -> run_calls (own_calls ss) h = Ok (os2, h2) ->
  forall m n c h', has (w_map (view h2)) m -> clone n X KMap m h1 = Ok (GVal c, h') ->
  let l := snd (fst (spec_deeds ss (view h) (names_of (view h)) (lists_of (view h)))) m in
  map_GetKeys h' c = Ok (once l) /\ (forall k, map_HasKey h' c k = Ok (is_in k l))
  /\ exists a vs, map_Values h' c = Ok a /\ arr_GetValues h' a = Ok vs /\ length vs = length (once l)
     /\ forall i k, nth_error (once l) i = Some k -> exists o, nth_error vs i = Some o /\ map_GetValue h' c k = Ok o.
Proof. exact reclone_names. Qed.

(** Under every name that the original lists the clone has a new Value: nil when the original holds nothing there, and
    else a copy of what it holds. *)
Theorem c95_entries : forall X h ss,
  reachable X h -> ok_deeds ss (view h) (names_of (view h)) (lists_of (view h)) ->
  forall os os2 h1 h2, run_deeds ss h = Ok (os, h1) -> run_calls (own_calls ss) h = Ok (os2, h2) ->
  forall m n c h', has (w_map (view h2)) m -> clone n X KMap m h1 = Ok (GVal c, h') ->
  forall k, In k (snd (fst (spec_deeds ss (view h) (names_of (view h)) (lists_of (view h)))) m) ->
  exists v y, map_GetValue h' c k = Ok (Some v) /\ length h1 <= v /\ value_GetObject h' v = Ok y
    /\ match dict_get (map_at (view h2) m) k with
       | Some (Some v0) => exists x, w_val (view h2) v0 = Some x /\ copied (fun l => length h1 <= l) (w_var (view h2)) (variable h') x y
       | _ => y = INil
       end.
Proof. exact reclone_entries. Qed.

(** And so at every depth [d]: what a clone of a map, an array or a Value holds is again cloned in this way, with the
    names that each nested map lists, and everything in it is new. *)
Theorem c95_deep : forall X h ss,
  reachable X h -> ok_deeds ss (view h) (names_of (view h)) (lists_of (view h)) ->
  forall os os2 h1 h2, run_deeds ss h = Ok (os, h1) -> run_calls (own_calls ss) h = Ok (os2, h2) ->
  let w := view h2 in
  let ns := snd (fst (spec_deeds ss (view h) (names_of (view h)) (lists_of (view h)))) in
  let new := fun l => length h1 <= l in
  forall n kd l c h', clone n X kd l h1 = Ok (GVal c, h') ->
  match kd with
  | KMap => has (w_map w) l -> new c /\ forall d, map_clone w ns h' new (same_to w ns h' new d) l c
  | KArr => has (w_arr w) l -> new c /\ forall d, arr_clone w h' new (same_to w ns h' new d) l c
  | KVal => forall x, w_val w l = Some x -> new c /\ exists y, value_GetObject h' c = Ok y /\ forall d, same_to w ns h' new d x y
  end.
Proof. exact reclone_every. Qed.

(** That a clone holds what its original holds is false for such programs: what is held under a name that is not listed
    is lost, and nil is held under a name that is listed only. *)
Definition reclone_ex : list deed :=
  [Name (Rcall ANewMap); Name (Rcall (AMapSet 1 (lit "a") (IScal (SBool true)))); Name (Rcall (AMapSet 1 (lit "b") (IScal (SBool false))));
   Name (Rcall (AMapSetScalarValue 1 (lit "c") (SStr (lit "x")))); Name (Rwrite 1 0 (lit "A")); List 1 (LRemoveValueAtIndex 0)].
Theorem c95_same_refuted : exists os h1 c h', run_deeds reclone_ex [] = Ok (os, h1) /\ clone 9 std_ext KMap 1 h1 = Ok (GVal c, h')
  /\ map_HasKey h' 1 (lit "a") = Ok true /\ map_HasKey h' c (lit "a") = Ok false
  /\ map_HasKey h' 1 (lit "A") = Ok false /\ map_HasKey h' c (lit "A") = Ok true
  /\ map_GetBool std_ext h' 1 (lit "a") = Ok (GVal (Some true))
  /\ map_ToJSONString 9 std_ext h' c (Some []) = Ok (Some (lit "{""A"":null,""b"":false,""c"":""x""}"), []).
Proof. eexists _, _, _, _. split; [vm_compute; reflexivity|]. split; [vm_compute; reflexivity|]. repeat split; vm_compute; reflexivity. Qed.

Example c95_ex : ok_deeds reclone_ex (view []) (names_of (view [])) (lists_of (view []))
  /\ snd (fst (spec_deeds reclone_ex (view []) (names_of (view [])) (lists_of (view [])))) 1 = [lit "A"; lit "b"; lit "c"]
  /\ exists os2 h2, run_calls (own_calls reclone_ex) [] = Ok (os2, h2) /\ has (w_map (view h2)) 1.
Proof.
  split; [|split; [vm_compute; reflexivity|eexists _, _; split; [vm_compute; reflexivity|eexists; reflexivity]]].
  cbn. unfold has, put; cbn. repeat split; eauto.
Qed.
(** A map that holds a renamed map: its clone holds a map with nil under the new name. *)
Definition reclone_deep_ex : list deed :=
  [Name (Rcall ANewMap); Name (Rcall ANewMap); Name (Rcall (AMapSet 3 (lit "a") (IScal (SBool true))));
   Name (Rcall (AMapSet 1 (lit "x") (IPMap (Some 3)))); Name (Rwrite 3 0 (lit "A"))].
Example c95_deep_ex : ok_deeds reclone_deep_ex (view []) (names_of (view [])) (lists_of (view []))
  /\ (exists os2 h2, run_calls (own_calls reclone_deep_ex) [] = Ok (os2, h2) /\ has (w_map (view h2)) 1)
  /\ exists os h1 c h', run_deeds reclone_deep_ex [] = Ok (os, h1) /\ clone 9 std_ext KMap 1 h1 = Ok (GVal c, h')
  /\ map_ToJSONString 9 std_ext h' c (Some []) = Ok (Some (lit "{""x"":{""A"":null}}"), []).
Proof.
  split; [|split; [eexists _, _; split; [vm_compute; reflexivity|eexists; reflexivity]|]].
  - cbn. unfold has, put; cbn. repeat split; eauto.
  - eexists _, _, _, _. split; [vm_compute; reflexivity|]. split; [vm_compute; reflexivity|]. vm_compute; reflexivity.
Qed.
(** [once] keeps every string, drops repetitions only, and keeps the order. *)
Example c95_once_ex : (forall k l, In k (once l) <-> In k l) /\ (forall l, NoDup (once l)) /\ (forall l, NoDup l -> once l = l)
  /\ once [lit "b"; lit "a"; lit "b"; lit "c"; lit "a"] = [lit "b"; lit "a"; lit "c"].
Proof. exact (conj once_in (conj once_nodup (conj once_same eq_refl))). Qed.

Print Assumptions c95_adds.
Print Assumptions c95_names.
Print Assumptions c95_entries.
Print Assumptions c95_deep.
Print Assumptions c95_same_refuted.
