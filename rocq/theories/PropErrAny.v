(** * Errors of any type in lists: C66 *)
From Coq Require Import Ascii String List NArith ZArith Bool Lia.
From Verif Require Import GoStr GoNum GoFloat Heap Common ValueModel ArrayModel MapModel JsonModel ParserModel GetterModel
  SpecDict SpecNum SpecWorld Inv World Reach MapFacts SpecDoc SpecRender SpecClone SpecHistory CloneResults SpecWrite WriteFacts
  ErrFacts ErrAny ExampleState ExampleJson ExampleClone.
Import ListNotations.
Local Open Scope nat_scope.

(** A list of errors under a key is read back as it is, with nil errors and errors of
    every type, if the environment's predicates accept a list of errors. *)
Theorem c66_get : forall X h m k l o h1,
  reachable X h -> has (w_map (view h)) m -> run_call (AMapSet m k (IErrs l)) h = Ok (o, h1) ->
  x_known X TErrs = true \/ x_is_array X TErrs = true ->
  map_GetErrors X h1 m k = Ok (GVal l).
Proof.
  exact (fun X h m k l o h1 R Hm E K => eq_trans (errors_get X h m k l o h1 R Hm E)
    (f_equal (fun b : bool => Ok (GVal (if b then l else []))) (proj2 (orb_true_iff _ _) K))).
Qed.

(** Its text is the array of the messages in quotes, null for nil errors, and nothing at
    all for errors of types the library does not know, one reported each. *)
Theorem c66_text : forall X h F m k l b,
  reachable X h -> escape_ok X -> holds_obj (view h) F (IMap m) (HMap [(k, HLeaf (IErrs l))]) ->
  exists f, forall fuel, f <= fuel ->
    map_ToJSONString fuel X h m (Some b)
    = Ok (Some (b ++ [c_lb] ++ quote k ++ [c_col]
                  ++ ([c_ls] ++ commas (map (fun e => text_or_hole (error_text e)) l) ++ [c_rs]) ++ [c_rb]),
          repeat EUnsupported (holes l)).
Proof. exact error_list_text. Qed.

(** So a map with a wrapped error, or one of a program's own error types, in a list is
    never written without errors. *)
Theorem c66_unknown : forall X h F m es k l n s b,
  reachable X h -> escape_ok X -> holds_obj (view h) F (IMap m) (HMap es) -> proper_content X (HMap es) -> ~ panics X (HMap es) ->
  dict_get es k = Some (HLeaf (IErrs l)) -> In (Typed n s) l -> ~ In n written_as_error ->
  exists t c f, 0 < c /\ forall fuel, f <= fuel -> map_ToJSONString fuel X h m (Some b) = Ok (Some (b ++ t), repeat EUnsupported c).
Proof. exact unknown_error. Qed.

(** Clone panics on a list with a nil error. *)
Theorem c66_clone_nil : forall X h F m es k l,
  reachable X h -> content_at h F KMap m (HMap es) -> dict_get es k = Some (HLeaf (IErrs l)) -> In NoError l ->
  x_is_array X TErrs = false ->
  exists f, forall fuel, f <= fuel -> clone fuel X KMap m h = Panic.
Proof. exact clone_nil_error. Qed.

(** In a clone every error of the list is a plain one, with the message used as a
    format: the type is lost. *)
Theorem c66_clone : forall X n h F m es k l c h2,
  reachable X h -> content_at h F KMap m (HMap es) -> dict_get es k = Some (HLeaf (IErrs l)) ->
  clone n X KMap m h = Ok (GVal c, h2) ->
  exists ms, error_messages l = Some ms
    /\ SpecWorld.object_at (view h2) c k = Some (IErrs (map (fun s => Plain (x_errorf X s)) ms)).
Proof. exact clone_errors. Qed.

(** Two maps with lists of errors, one with a nil error. *)
Definition any_list : list goerr := [Plain (lit "a"); Typed (lit "*fmt.wrapError") (lit "b: a"); Typed (lit "*url.Error") (lit "c")].
Definition any_calls : list api :=
  [ANewMap; AMapSet 1 (lit "k") (IScal (SBool true)); AMapSet 1 (lit "e") (IErrs any_list);
   ANewMap; AMapSet 5 (lit "e") (IErrs (NoError :: any_list))].
Definition any_state : heap := match run_calls any_calls [] with Ok (_, h) => h | _ => [] end.
Definition any_content : list (str * content) := [(lit "k", HLeaf (IScal (SBool true))); (lit "e", HLeaf (IErrs any_list))].
Definition nil_content : list (str * content) := [(lit "e", HLeaf (IErrs (NoError :: any_list)))].
Example c66_ex : (forall X, reachable X any_state) /\ escape_ok std_ext
  /\ holds_obj (view any_state) (fun _ => True) (IMap 1) (HMap any_content)
  /\ content_at any_state (fun _ => True) KMap 1 (HMap any_content)
  /\ content_at any_state (fun _ => True) KMap 5 (HMap nil_content)
  /\ map_ToJSONString 9 std_ext any_state 5 (Some []) = Ok (Some (lit "{""e"":[null,""a"",,""c""]}"), [EUnsupported])
  /\ proper_content std_ext (HMap any_content) /\ ~ panics std_ext (HMap any_content)
  /\ x_is_array std_ext TErrs = false
  /\ ~ In (lit "*fmt.wrapError") written_as_error
  /\ map_ToJSONString 9 std_ext any_state 1 (Some []) = Ok (Some (lit "{""k"":true,""e"":[""a"",,""c""]}"), [EUnsupported])
  /\ clone 9 std_ext KMap 5 any_state = Panic
  /\ (exists c h2, clone 9 std_ext KMap 1 any_state = Ok (GVal c, h2)
       /\ SpecWorld.object_at (view h2) c (lit "e") = Some (IErrs (map Plain [lit "a"; lit "b: a"; lit "c"]))).
Proof.
  split.
  { intros X. assert (E : exists os, run_calls any_calls [] = Ok (os, any_state)) by (eexists; vm_compute; reflexivity).
    destruct E as [os E]. refine (reachable_run_calls _ any_calls [] os any_state (R_start _) _ E).
    apply ok_callsb_ok. vm_compute. reflexivity. }
  split; [intros t; reflexivity|].
  split; [apply (content_of_holds _ 9); vm_compute; reflexivity|].
  split; [apply (content_of_holds _ 9); vm_compute; reflexivity|].
  split; [apply (content_of_holds _ 9); vm_compute; reflexivity|].
  split; [vm_compute; reflexivity|].
  split. { apply pc_map. repeat (first [apply Forall_nil | apply Forall_cons; [cbn [snd]; apply pc_leaf; intros s [=]; subst; exact I|]]). }
  split. { intros P. assert (T : x_typed_nil std_ext = true) by reflexivity. clear - P T. induction P; auto; congruence. }
  split; [reflexivity|]. split; [intros H; repeat destruct H as [H|H]; try discriminate; contradiction|].
  split; [vm_compute; reflexivity|]. split; [vm_compute; reflexivity|]. do 2 eexists. split; vm_compute; reflexivity.
Qed.

Print Assumptions c66_get.
Print Assumptions c66_text.
Print Assumptions c66_unknown.
Print Assumptions c66_clone_nil.
Print Assumptions c66_clone.
