(** * Errors as values: C51 *)
From Coq Require Import Ascii String List NArith ZArith Bool Lia.
From Verif Require Import GoStr GoNum GoFloat Heap Common ValueModel ArrayModel MapModel JsonModel ParserModel
  SpecDict SpecWorld Inv World Reach MapFacts SpecDoc SpecRender SpecRound SpecClone SpecHistory SpecErr ErrOne ExampleState ExampleJson.
Import ListNotations.
Local Open Scope nat_scope.

(** An error stored under a key is written as a string, its message. *)
Theorem c51_text : forall X h F m es k i s o h1 b,
  reachable X h -> escape_ok X -> rep_obj (x_typed_nil X) (view h) F (IMap m) (DMap es) ->
  proper (x_is64 X) (DMap es) -> error_object i s -> run_call (AMapSet m k i) h = Ok (o, h1) ->
  exists n t, shows (DMap (dict_set es k (DErr s))) t
    /\ forall fuel, n <= fuel -> map_ToJSONString fuel X h1 m (Some b) = Ok (Some (b ++ t), []).
Proof. exact error_text. Qed.

(** Parsing that text gives the message as a string. *)
Theorem c51_round_trip : forall X h F m es k i s o h1 b h2,
  reachable X h -> escape_ok X -> rep_obj (x_typed_nil X) (view h) F (IMap m) (DMap es) ->
  proper (x_is64 X) (DMap es) -> writable (DMap es) -> safe k -> safe s -> error_object i s ->
  run_call (AMapSet m k i) h = Ok (o, h1) -> reachable X h2 ->
  exists n t m2 h3,
    (forall fuel, n <= fuel -> map_ToJSONString fuel X h1 m (Some b) = Ok (Some (b ++ t), []))
    /\ shows (DMap (dict_set es k (DErr s))) t
    /\ Parse X t h2 = Ok (GVal (Some m2), h3)
    /\ scalar_at (view h3) m2 k = Some (SStr s)
    /\ map_GetStringValue X h3 m2 k = Ok (GVal s).
Proof. exact error_round. Qed.

(** A clone represents the same map with the message used as a format. *)
Theorem c51_clone : forall X h F m es k i s o h1 n c h2,
  reachable X h -> rep_obj (x_typed_nil X) (view h) F (IMap m) (DMap es) -> error_object i s ->
  run_call (AMapSet m k i) h = Ok (o, h1) -> clone n X KMap m h1 = Ok (GVal c, h2) ->
  exists es2, rep_obj (x_typed_nil X) (view h2) (made_in h1 h2) (IMap c) (DMap es2)
    /\ dict_get es2 k = Some (DErr (x_errorf X s)).
Proof. exact error_clone. Qed.

(** What a successful clone holds in place of a Go value that is no container and no
    pointer to a variable; an error and a time.Time become pointers. *)
Theorem c51_clone_value : forall X h m k i n c h2,
  reachable X h -> SpecWorld.object_at (view h) m k = Some i -> leaf i -> has (w_map (view h)) m ->
  clone n X KMap m h = Ok (GVal c, h2) ->
  exists j, fate_of X i = Copied j /\ SpecWorld.object_at (view h2) c k = Some j.
Proof. exact clone_leaf. Qed.

(** GetErrors on an array reads every element as a message; if some element has none
    it reports one error for each of these instead. *)
Theorem c51_elements : forall X h m k a l i,
  reachable X h -> has (w_map (view h)) m -> i = IArr a \/ i = IPArr (Some a) ->
  SpecWorld.object_at (view h) m k = Some i ->
  w_arr (view h) a = Some l -> Forall (readable (x_is64 X) (view h)) l ->
  exists rs, Forall2 (message (view h)) l rs
    /\ map_GetErrors X h m k = Ok (if missing rs =? 0 then GVal (map Plain (messages rs)) else GErr (repeat EUnsupported (missing rs))).
Proof. exact get_errors_any. Qed.

(** Errors beside other members, an error with a format, and arrays with and without
    elements that are no messages. *)
Definition one_calls : list api :=
  [ANewMap; AMapSet 1 (lit "a") (IScal (SBool true)); AMapSet 1 (lit "e") (IScal (SInt KInt 1))].
Definition one_state : heap := match run_calls one_calls [] with Ok (_, h) => h | _ => [] end.
Definition one_doc : list (str * doc) := [(lit "a", DScal (SBool true)); (lit "e", DScal (SInt KInt 1))].
Definition one_after : heap := match run_call (AMapSet 1 (lit "e") (IErr (lit "bad ""x"""))) one_state with Ok (_, h) => h | _ => [] end.
Example c51_ex : reachable std_ext one_state /\ escape_ok std_ext
  /\ rep_obj (x_typed_nil std_ext) (view one_state) (fun _ => True) (IMap 1) (DMap one_doc)
  /\ proper true (DMap one_doc) /\ writable (DMap one_doc) /\ safe (lit "e") /\ safe (lit "bad ""x""")
  /\ run_call (AMapSet 1 (lit "e") (IErr (lit "bad ""x"""))) one_state = Ok (ODone, one_after)
  /\ map_ToJSONString 9 std_ext one_after 1 (Some []) = Ok (Some (lit "{""a"":true,""e"":""bad \""x\""""}"), [])
  /\ exists c h2, clone 9 std_ext KMap 1 one_after = Ok (GVal c, h2)
     /\ SpecWorld.object_at (view h2) c (lit "e") = Some (IPErr (Some (Plain (lit "bad ""x""")))).
Proof.
  assert (SF : forall s, forallb (fun c => (N_of_ascii c <? 128)%N) s = true -> (last s "a"%char <> c_bs) -> safe s).
  { intros s A L. split.
    - apply Forall_forall. intros c I. rewrite forallb_forall in A. apply A, N.ltb_lt in I. exact I.
    - intros u ->. rewrite last_last in L. now apply L. }
  split.
  { assert (E : exists os, run_calls one_calls [] = Ok (os, one_state)) by (eexists; vm_compute; reflexivity).
    destruct E as [os E]. refine (reachable_run_calls _ one_calls [] os one_state (R_start _) _ E).
    apply ok_callsb_ok. vm_compute. reflexivity. }
  split; [intros t; reflexivity|].
  split; [apply doc_of_rep with (n := 5); vm_compute; reflexivity|].
  split. { apply pr_map. apply Forall_cons; [apply pr_scal; exact I|]. apply Forall_cons; [apply pr_scal; apply fitsb_ok; reflexivity|]. apply Forall_nil. }
  split. { apply wr_map. repeat (apply Forall_cons; [split; [apply SF; [reflexivity|vm_compute; discriminate]|split; [intros []|]]|]).
    - apply wr_scal; [exact I|discriminate].
    - apply wr_scal; [exact I|discriminate].
    - apply Forall_nil. }
  split; [apply SF; [reflexivity|vm_compute; discriminate]|].
  split; [apply SF; [reflexivity|vm_compute; discriminate]|].
  split; [vm_compute; reflexivity|]. split; [vm_compute; reflexivity|].
  do 2 eexists. split; vm_compute; reflexivity.
Qed.

Definition elems_calls : list api :=
  [ANewMap; ANewArray; AArrAppend 2 (IErr (lit "e1")); AArrAppend 2 (IPErr (Some (Typed (lit "*fmt.wrapError") (lit "e2")))); AArrAppend 2 (IScal (SStr (lit "text")));
   AArrAppend 2 (IScal (SInt KInt 7)); AArrAppend 2 (IScal (SBool true)); AMapSet 1 (lit "good") (IArr 2);
   ANewArray; AArrAppend 9 (IScal (SStr (lit "text"))); AArrAppend 9 INil; AArrAppend 9 (IMap 1); AMapSet 1 (lit "bad") (IPArr (Some 9))].
Definition elems_state : heap := match run_calls elems_calls [] with Ok (_, h) => h | _ => [] end.
Example c51_elems_ex : reachable std_ext elems_state /\ has (w_map (view elems_state)) 1
  /\ SpecWorld.object_at (view elems_state) 1 (lit "good") = Some (IArr 2)
  /\ SpecWorld.object_at (view elems_state) 1 (lit "bad") = Some (IPArr (Some 9))
  /\ (exists l, w_arr (view elems_state) 2 = Some l /\ length l = 5 /\ Forall (readable true (view elems_state)) l)
  /\ (exists l, w_arr (view elems_state) 9 = Some l /\ length l = 3 /\ Forall (readable true (view elems_state)) l)
  /\ map_GetErrors std_ext elems_state 1 (lit "good") = Ok (GVal (map Plain [lit "e1"; lit "e2"; lit "text"; lit "7"; lit "true"]))
  /\ map_GetErrors std_ext elems_state 1 (lit "bad") = Ok (GErr [EUnsupported; EUnsupported]).
Proof.
  split.
  { assert (E : exists os, run_calls elems_calls [] = Ok (os, elems_state)) by (eexists; vm_compute; reflexivity).
    destruct E as [os E]. refine (reachable_run_calls _ elems_calls [] os elems_state (R_start _) _ E).
    apply ok_callsb_ok. vm_compute. reflexivity. }
  split; [eexists; vm_compute; reflexivity|]. split; [vm_compute; reflexivity|]. split; [vm_compute; reflexivity|].
  split.
  { eexists. split; [vm_compute; reflexivity|]. split; [reflexivity|].
    repeat (apply Forall_cons; [intros v [= <-]; eexists; split; [vm_compute; reflexivity|]|]).
    - right. left. eexists. now left.
    - right. left. eexists. right. right. eexists. reflexivity.
    - left. eexists. split; [vm_compute; reflexivity|exact I].
    - left. eexists. split; [vm_compute; reflexivity|]. apply fitsb_ok; reflexivity.
    - left. eexists. split; [vm_compute; reflexivity|exact I].
    - apply Forall_nil. }
  split.
  { eexists. split; [vm_compute; reflexivity|]. split; [reflexivity|].
    repeat (apply Forall_cons; [intros v [= <-]; eexists; split; [vm_compute; reflexivity|]|]).
    - left. eexists. split; [vm_compute; reflexivity|exact I].
    - right. right. now left.
    - do 3 right. left. eexists. now left.
    - apply Forall_nil. }
  split; vm_compute; reflexivity.
Qed.

Print Assumptions c51_text.
Print Assumptions c51_round_trip.
Print Assumptions c51_clone.
Print Assumptions c51_clone_value.
Print Assumptions c51_elements.
