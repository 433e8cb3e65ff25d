(** * Lists of errors: C47 *)
From Coq Require Import Ascii String List NArith ZArith Bool Lia.
From Verif Require Import GoStr GoNum GoFloat Heap Common ValueModel ArrayModel MapModel JsonModel ParserModel
  SpecDict SpecWorld Inv World Reach MapFacts SpecDoc SpecRender SpecRound SpecClone SpecHistory ErrFacts ExampleState ExampleJson.
Import ListNotations.
Local Open Scope nat_scope.

(** SetErrors stores the list as it is: [AMapSet m k (IErrs (map Plain l))].  The text of the map is
    that of its document with the array of the messages under the key. *)
Theorem c47_text : forall X h F m es k l o h1 b,
  reachable X h -> escape_ok X -> rep_obj (x_typed_nil X) (view h) F (IMap m) (DMap es) ->
  proper (x_is64 X) (DMap es) -> run_call (AMapSet m k (IErrs (map Plain l))) h = Ok (o, h1) ->
  exists n s, shows (DMap (dict_set es k (DTexts l))) s
    /\ forall fuel, n <= fuel -> map_ToJSONString fuel X h1 m (Some b) = Ok (Some (b ++ s), []).
Proof. exact errors_text. Qed.

(** Parsing that text and asking for the errors returns the messages. *)
Theorem c47_round_trip : forall X h F m es k l o h1 b h2,
  reachable X h -> escape_ok X -> rep_obj (x_typed_nil X) (view h) F (IMap m) (DMap es) ->
  proper (x_is64 X) (DMap es) -> writable (DMap es) -> safe k -> ~ In c_dq k -> Forall safe l ->
  run_call (AMapSet m k (IErrs (map Plain l))) h = Ok (o, h1) -> reachable X h2 ->
  exists n s m2 h3,
    (forall fuel, n <= fuel -> map_ToJSONString fuel X h1 m (Some b) = Ok (Some (b ++ s), []))
    /\ shows (DMap (dict_set es k (DTexts l))) s
    /\ Parse X s h2 = Ok (GVal (Some m2), h3) /\ map_GetErrors X h3 m2 k = Ok (GVal (map Plain l)).
Proof. exact errors_round. Qed.

(** GetErrors returns what SetErrors stored if one of the type predicates of the
    environment accepts a list of errors, and nothing at all otherwise. *)
Theorem c47_get : forall X h m k l o h1,
  reachable X h -> has (w_map (view h)) m -> run_call (AMapSet m k (IErrs l)) h = Ok (o, h1) ->
  map_GetErrors X h1 m k = Ok (GVal (if x_known X TErrs || x_is_array X TErrs then l else [])).
Proof. exact errors_get. Qed.

(** It reads a stored array of strings as messages too. *)
Theorem c47_array : forall X h m k a l ts i,
  reachable X h -> has (w_map (view h)) m -> i = IArr a \/ i = IPArr (Some a) ->
  SpecWorld.object_at (view h) m k = Some i -> w_arr (view h) a = Some l ->
  Forall2 (fun o t => exists v j, o = Some v /\ w_val (view h) v = Some j /\ scalar_of (view h) j = Some (SStr t)) l ts ->
  map_GetErrors X h m k = Ok (GVal (map Plain ts)).
Proof. exact get_errors_array. Qed.

(** Clone keeps messages without a percent sign, if fmt.Errorf does. *)
Theorem c47_clone : forall X h F m es k l o h1 n c h2,
  (forall t, ~ In "%"%char t -> x_errorf X t = t) ->
  reachable X h -> rep_obj (x_typed_nil X) (view h) F (IMap m) (DMap es) ->
  run_call (AMapSet m k (IErrs (map Plain l))) h = Ok (o, h1) -> clone n X KMap m h1 = Ok (GVal c, h2) ->
  Forall (fun t => ~ In "%"%char t) l ->
  exists es2, rep_obj (x_typed_nil X) (view h2) (made_in h1 h2) (IMap c) (DMap es2) /\ dict_get es2 k = Some (DTexts l).
Proof. exact errors_clone. Qed.

(** The list of errors is stored beside other members, written, parsed, read and cloned. *)
Definition err_calls : list api :=
  [ANewMap; AMapSet 1 (lit "a") (IScal (SBool true)); AMapSet 1 (lit "errs") (IScal (SInt KInt 1)); AMapSet 1 (lit "z") INil].
Definition err_state : heap := match run_calls err_calls [] with Ok (_, h) => h | _ => [] end.
Definition err_doc : list (str * doc) := [(lit "a", DScal (SBool true)); (lit "errs", DScal (SInt KInt 1)); (lit "z", DNull)].
Definition err_list : list str := [lit "first"; lit "say ""no"""; []].
Definition err_after : heap := match run_call (AMapSet 1 (lit "errs") (IErrs (map Plain err_list))) err_state with Ok (_, h) => h | _ => [] end.
Example c47_ex : reachable std_ext err_state /\ escape_ok std_ext /\ has (w_map (view err_state)) 1
  /\ rep_obj (x_typed_nil std_ext) (view err_state) (fun _ => True) (IMap 1) (DMap err_doc)
  /\ proper true (DMap err_doc) /\ writable (DMap err_doc) /\ safe (lit "errs") /\ Forall safe err_list
  /\ run_call (AMapSet 1 (lit "errs") (IErrs (map Plain err_list))) err_state = Ok (ODone, err_after)
  /\ map_ToJSONString 9 std_ext err_after 1 (Some []) = Ok (Some (lit "{""a"":true,""errs"":[""first"",""say \""no\"""",""""],""z"":null}"), [])
  /\ map_GetErrors std_ext err_after 1 (lit "errs") = Ok (GVal [])
  /\ (forall t, ~ In "%"%char t -> x_errorf std_ext t = t)
  /\ exists c h2, clone 9 std_ext KMap 1 err_after = Ok (GVal c, h2).
Proof.
  assert (SF : forall s, forallb (fun c => (N_of_ascii c <? 128)%N) s = true -> (last s "a"%char <> c_bs) -> safe s).
  { intros s A L. split.
    - apply Forall_forall. intros c I. rewrite forallb_forall in A. apply A, N.ltb_lt in I. exact I.
    - intros u ->. rewrite last_last in L. now apply L. }
  split.
  { assert (E : exists os, run_calls err_calls [] = Ok (os, err_state)) by (eexists; vm_compute; reflexivity).
    destruct E as [os E]. refine (reachable_run_calls _ err_calls [] os err_state (R_start _) _ E).
    apply ok_callsb_ok. vm_compute. reflexivity. }
  split; [intros t; reflexivity|]. split; [eexists; vm_compute; reflexivity|].
  split; [apply doc_of_rep with (n := 5); vm_compute; reflexivity|].
  split. { apply pr_map. apply Forall_cons; [apply pr_scal; exact I|]. apply Forall_cons; [apply pr_scal; apply fitsb_ok; reflexivity|].
    apply Forall_cons; [apply pr_null|apply Forall_nil]. }
  split. { apply wr_map. repeat (apply Forall_cons; [split; [apply SF; [reflexivity|vm_compute; discriminate]|split; [intros []|]]|]).
    - apply wr_scal; [exact I|discriminate].
    - apply wr_scal; [exact I|discriminate].
    - apply wr_null.
    - apply Forall_nil. }
  split; [apply SF; [reflexivity|vm_compute; discriminate]|].
  split; [repeat (apply Forall_cons; [apply SF; [reflexivity|vm_compute; discriminate]|]); apply Forall_nil|].
  split; [vm_compute; reflexivity|]. split; [vm_compute; reflexivity|]. split; [vm_compute; reflexivity|].
  split; [reflexivity|]. do 2 eexists. vm_compute. reflexivity.
Qed.

Print Assumptions c47_text.
Print Assumptions c47_round_trip.
Print Assumptions c47_get.
Print Assumptions c47_array.
Print Assumptions c47_clone.
