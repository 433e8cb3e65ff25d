(** * Properties of Clone: C34, C35, C36 *)
From Coq Require Import Ascii String List NArith ZArith Bool Lia.
From Verif Require Import GoStr GoNum GoFloat Heap Common ValueModel ArrayModel MapModel JsonModel ParserModel
  SpecDict SpecNum SpecWorld Inv World Reach SpecFloat SpecDoc SpecText SpecToken SpecParse SpecRender SpecRound SpecUtf8 SpecJson
  RenderFacts ExampleState ExampleJson SpecClone SpecHistory CloneResults ExampleClone.
Import ListNotations.

(** In all statements [kd] is [KMap], [KArr] or [KVal]: the theorems are about
    Map.Clone, Array.Clone and Value.Clone. *)

(** ** C34: the clone equals the original *)

(** Clone of anything with leaves nil, scalars, times and pointers to variables
    returns a structure with exactly the same content, made of new objects, with no
    sharing; nothing that existed changes. *)
Theorem c34_equal : forall X h F kd l k,
  reachable X h -> content_at h F kd l k -> plain k ->
  exists n c h', (forall fuel, n <= fuel -> clone fuel X kd l h = Ok (GVal c, h'))
    /\ reachable X h' /\ unchanged h h' /\ content_at h' (made_in h h') kd c k /\ tree_at h' kd c.
Proof. exact clone_plain. Qed.

(** In general the content is [copy X k]. *)
Theorem c34_copy : forall X h F kd l k,
  reachable X h -> content_at h F kd l k -> crashes X k = false -> rejects X k = [] ->
  exists n c h', (forall fuel, n <= fuel -> clone fuel X kd l h = Ok (GVal c, h'))
    /\ reachable X h' /\ unchanged h h' /\ content_at h' (made_in h h') kd c (copy X k) /\ tree_at h' kd c.
Proof. exact clone_good. Qed.

(** An object has one content. *)
Theorem c34_one_content : forall h F F' kd l k k', content_at h F kd l k -> content_at h F' kd l k' -> k = k'.
Proof. exact content_fun. Qed.

(** Whatever Clone returns represents the document of the original, except that the
    messages of lists of errors have been used as formats. *)
Theorem c34_document : forall X n h F m d c h',
  reachable X h -> rep_obj (x_typed_nil X) (view h) F (IMap m) d -> clone n X KMap m h = Ok (GVal c, h') ->
  reachable X h' /\ unchanged h h' /\ rep_obj (x_typed_nil X) (view h') (made_in h h') (IMap c) (copy_doc X d).
Proof. exact clone_document. Qed.

(** Hence it has the same text. *)
Theorem c34_text : forall X n h F m d c h' b b',
  reachable X h -> escape_ok X -> rep_obj (x_typed_nil X) (view h) F (IMap m) d ->
  proper (x_is64 X) d -> copy_doc X d = d -> clone n X KMap m h = Ok (GVal c, h') ->
  exists n' s, (forall fuel, n' <= fuel -> map_ToJSONString fuel X h m (Some b) = Ok (Some (b ++ s), []))
    /\ (forall fuel, n' <= fuel -> map_ToJSONString fuel X h' c (Some b') = Ok (Some (b' ++ s), [])).
Proof. exact clone_text. Qed.

Definition clone_after : heap := match clone 9 std_ext KMap 1 clone_state with Ok (_, h) => h | _ => [] end.
Definition clone_doc : doc :=
  let sub := DMap [(lit "e", DTexts [lit "one"; lit "two"]); (lit "n", DNull); (lit "v", DNull)] in
  DMap [(lit "s", DScal (SStr (lit "text"))); (lit "p", DScal (SInt KInt32 7));
        (lit "a", DArr [DScal (SBool true); DScal (SInt KInt32 7)]); (lit "m", sub); (lit "again", sub)].

Example c34_ex : reachable std_ext clone_state
  /\ content_at clone_state (fun _ => True) KMap 1 clone_content
  /\ crashes std_ext clone_content = false /\ rejects std_ext clone_content = []
  /\ content_at clone_state (fun _ => True) KArr 5 (HArr [HLeaf (IScal (SBool true)); HVar (SInt KInt32 7)])
  /\ plain (HArr [HLeaf (IScal (SBool true)); HVar (SInt KInt32 7)])
  /\ content_at clone_state (fun _ => True) KVal 8 (HArr [HLeaf (IScal (SBool true)); HVar (SInt KInt32 7)]).
Proof.
  split; [apply clone_reachable|]. split; [apply clone_holds|]. split; [reflexivity|]. split; [reflexivity|].
  split; [apply (content_of_holds _ 9); vm_compute; reflexivity|]. split; [repeat constructor|].
  apply hv_some with (i := IPArr (Some 5)); [exact Logic.I|reflexivity|]. apply (content_of_holds _ 9). vm_compute. reflexivity.
Qed.
Example c34_document_ex : rep_obj (x_typed_nil std_ext) (view clone_state) (fun _ => True) (IMap 1) clone_doc
  /\ clone 9 std_ext KMap 1 clone_state = Ok (GVal 16, clone_after)
  /\ proper (x_is64 std_ext) clone_doc /\ copy_doc std_ext clone_doc = clone_doc
  /\ map_ToJSONString 9 std_ext clone_after 16 (Some [])
     = Ok (Some (lit "{""s"":""text"",""p"":7,""a"":[true,7],""m"":{""e"":[""one"",""two""],""n"":null,""v"":null},""again"":{""e"":[""one"",""two""],""n"":null,""v"":null}}"), []).
Proof.
  split; [apply (doc_of_rep _ 9); vm_compute; reflexivity|]. split; [vm_compute; reflexivity|].
  split; [apply properb_ok; vm_compute; reflexivity|]. split; vm_compute; reflexivity.
Qed.

(** ** C35: the clone is independent *)

(** The original is made of objects older than the clone, the clone of objects made by
    Clone. *)
Theorem c35_apart : forall X n kd m h c h',
  reachable X h -> kd <> KVal -> exists_in h kd m -> clone n X kd m h = Ok (GVal c, h') ->
  (forall p l, object_at (view h) m p l -> old_in h l) /\ (forall p v, value_at (view h) m p v -> old_in h v)
  /\ (forall p l, object_at (view h') c p l -> made_in h h' l) /\ (forall p v, value_at (view h') c p v -> made_in h h' v).
Proof. exact clone_apart. Qed.

(** Whatever the program does that changes no object of the clone, the clone keeps its
    content; whatever it does that changes no object older than the clone, the original
    keeps its content. *)
Theorem c35_independent : forall X n kd m h k c h1 h2,
  reachable X h -> content_at h (fun _ => True) kd m k -> clone n X kd m h = Ok (GVal c, h1) ->
  (history X (made_in h h1) h1 h2 -> content_at h2 (made_in h h1) kd c (copy X k))
  /\ (history X (old_in h) h1 h2 -> content_at h2 (old_in h) kd m k).
Proof. exact clone_indep. Qed.

(** And ToJSONString gives the text it gave before. *)
Theorem c35_text : forall X n m h d c h1 h2 b,
  reachable X h -> escape_ok X -> rep_obj (x_typed_nil X) (view h) (fun _ => True) (IMap m) d ->
  proper (x_is64 X) d -> copy_doc X d = d -> clone n X KMap m h = Ok (GVal c, h1) ->
  exists s, shows d s
  /\ (history X (made_in h h1) h1 h2 ->
      exists n', forall fuel, n' <= fuel -> map_ToJSONString fuel X h2 c (Some b) = Ok (Some (b ++ s), []))
  /\ (history X (old_in h) h1 h2 ->
      exists n', forall fuel, n' <= fuel -> map_ToJSONString fuel X h2 m (Some b) = Ok (Some (b ++ s), [])).
Proof. exact clone_indep_text. Qed.

(** The original's array is extended, its variable changed and its string replaced: the
    clone has the old text, the original a new one. *)
Definition later_calls : list api :=
  [AArrAppend 5 (IScal (SBool false)); AVarSet 3 (SInt KInt32 8); AValSetObject 2 (IMap 10); AMapRemoveKey 10 (lit "e")].
Definition later : heap := match run_calls later_calls clone_after with Ok (_, h) => h | _ => [] end.
Example c35_ex : clone 9 std_ext KMap 1 clone_state = Ok (GVal 16, clone_after)
  /\ history std_ext (made_in clone_state clone_after) clone_after later
  /\ map_ToJSONString 9 std_ext later 16 (Some []) = map_ToJSONString 9 std_ext clone_state 1 (Some [])
  /\ map_ToJSONString 9 std_ext later 1 (Some [])
     = Ok (Some (lit "{""s"":{""n"":null,""v"":null},""p"":8,""a"":[true,8,false],""m"":{""n"":null,""v"":null},""again"":{""n"":null,""v"":null}}"), []).
Proof.
  split; [vm_compute; reflexivity|]. split; [|split; vm_compute; reflexivity].
  apply (run_apart_history _ (fun l => (15 <=? l) && (l <? 37)) _ later_calls).
  - assert (E : length clone_state = 15 /\ length clone_after = 37) by (split; vm_compute; reflexivity). destruct E as [E1 E2].
    intros l. unfold made_in. rewrite E1, E2. intros [A B]. apply andb_true_intro.
    split; [now apply Nat.leb_le|now apply Nat.ltb_lt].
  - vm_compute. reflexivity.
Qed.

(** ** C36: when Clone fails *)

(** With leaves that cannot be cloned Clone returns their errors, in order, and nothing
    that existed changes. *)
Theorem c36_errors : forall X h F kd l k,
  reachable X h -> content_at h F kd l k -> crashes X k = false -> rejects X k <> [] ->
  exists n h', (forall fuel, n <= fuel -> clone fuel X kd l h = Ok (GErr (rejects X k), h')) /\ reachable X h' /\ unchanged h h'.
Proof. exact clone_errs. Qed.

(** A Clone that returns is one of the two cases: it never returns errors otherwise,
    nor a structure when there is something to reject. *)
Theorem c36_returned : forall X n h kd l r h',
  reachable X h -> exists_in h kd l -> clone n X kd l h = Ok (r, h') ->
  reachable X h' /\ unchanged h h' /\ exists k, content_at h (fun _ => True) kd l k /\ crashes X k = false
    /\ match r with
       | GVal c => rejects X k = [] /\ content_at h' (made_in h h') kd c (copy X k) /\ tree_at h' kd c
       | GErr e => e = rejects X k /\ e <> []
       end.
Proof. exact clone_returned. Qed.

(** It is false that Clone never panics: every array holding a nil [*Value] panics. *)
Theorem c36_panics : forall X h F kd l k,
  reachable X h -> content_at h F kd l k -> crashes X k = true ->
  exists n, forall fuel, n <= fuel -> clone fuel X kd l h = Panic.
Proof. exact clone_panics. Qed.
Definition panic_calls : list api := [ANewArray; AArrAppendValue 0 None; ANewMap; AMapSet 2 (lit "a") (IArr 0)].
Definition panic_state : heap := match run_calls panic_calls [] with Ok (_, h) => h | _ => [] end.
Theorem c36_never_panics_refuted : forall X,
  exists h kd l, reachable X h /\ exists_in h kd l /\ acyclic_at h kd l
    /\ content_at h (fun _ => True) kd l (HMap [(lit "a", HArr [HNone])])
    /\ exists n, forall fuel, n <= fuel -> clone fuel X kd l h = Panic.
Proof.
  intros X. exists panic_state, KMap, 2.
  assert (R : reachable X panic_state).
  { assert (E : exists os, run_calls panic_calls [] = Ok (os, panic_state)) by (eexists; vm_compute; reflexivity).
    destruct E as [os E]. refine (MapFacts.reachable_run_calls _ panic_calls [] os panic_state (R_start _) _ E).
    apply ok_callsb_ok. vm_compute. reflexivity. }
  assert (C : content_at panic_state (fun _ => True) KMap 2 (HMap [(lit "a", HArr [HNone])])).
  { apply (content_of_holds _ 9). vm_compute. reflexivity. }
  split; [exact R|]. split; [eapply content_exists; exact C|]. split; [exact (content_acyclic X _ _ _ _ _ R C)|].
  split; [exact C|]. exact (clone_panics X _ _ _ _ _ R C eq_refl).
Qed.

(** On acyclic structures Clone ends. *)
Theorem c36_ends : forall X h kd l, reachable X h -> exists_in h kd l -> acyclic_at h kd l ->
  exists n k, content_at h (fun _ => True) kd l k /\ forall fuel, n <= fuel ->
    (exists r, clone fuel X kd l h = Ok r) \/ clone fuel X kd l h = Panic.
Proof. exact clone_ends. Qed.

(** On cyclic structures it never returns. *)
Theorem c36_cyclic : forall X n h kd l r, reachable X h -> exists_in h kd l -> cyclic_at h kd l -> clone n X kd l h <> Ok r.
Proof. exact clone_loops. Qed.

(** A structure has a content exactly when it is acyclic. *)
Theorem c36_content : forall X h F kd l k, reachable X h -> content_at h F kd l k -> acyclic_at h kd l.
Proof. exact content_acyclic. Qed.

Definition fail_calls : list api :=
  [ANewMap; AMapSet 1 (lit "f") (IFunc 0); AMapSet 1 (lit "o") (IOther (lit "chan int") (Some 0)); AMapSet 1 (lit "n") (IScal (SBool true))].
Definition fail_state : heap := match run_calls fail_calls [] with Ok (_, h) => h | _ => [] end.
Definition cyc_calls : list api := [ANewMap; ANewArray; AMapSet 1 (lit "a") (IArr 2); AArrAppend 2 (IMap 1)].
Definition cyc_state : heap := match run_calls cyc_calls [] with Ok (_, h) => h | _ => [] end.
Example c36_ex :
  let k := HMap [(lit "f", HLeaf (IFunc 0)); (lit "o", HLeaf (IOther (lit "chan int") (Some 0))); (lit "n", HLeaf (IScal (SBool true)))] in
  reachable std_ext fail_state /\ content_at fail_state (fun _ => True) KMap 1 k
  /\ crashes std_ext k = false /\ rejects std_ext k = [EUnsupported; EUnsupported]
  /\ acyclic_at fail_state KMap 1
  /\ reachable std_ext cyc_state /\ exists_in cyc_state KMap 1 /\ cyclic_at cyc_state KMap 1.
Proof.
  intros k.
  assert (R : reachable std_ext fail_state).
  { assert (E : exists os, run_calls fail_calls [] = Ok (os, fail_state)) by (eexists; vm_compute; reflexivity).
    destruct E as [os E]. refine (MapFacts.reachable_run_calls _ fail_calls [] os fail_state (R_start _) _ E).
    apply ok_callsb_ok. vm_compute. reflexivity. }
  assert (C : content_at fail_state (fun _ => True) KMap 1 k).
  { apply (content_of_holds _ 9). vm_compute. reflexivity. }
  split; [exact R|]. split; [exact C|]. split; [reflexivity|]. split; [reflexivity|].
  split; [exact (content_acyclic _ _ _ _ _ _ R C)|]. split; [|split].
  - assert (E : exists os, run_calls cyc_calls [] = Ok (os, cyc_state)) by (eexists; vm_compute; reflexivity).
    destruct E as [os E]. refine (MapFacts.reachable_run_calls _ cyc_calls [] os cyc_state (R_start _) _ E).
    apply ok_callsb_ok. vm_compute. reflexivity.
  - eexists. vm_compute. reflexivity.
  - exists [], 1, ([] ++ [PKey (lit "a")] ++ [PIndex 0]). split; [constructor|]. split; [|discriminate].
    rewrite app_assoc. apply oa_in with (v := 4) (i := IMap 1); [|reflexivity|reflexivity].
    apply va with (c' := 2); [|eexists; split; reflexivity].
    apply oa_in with (v := 3) (i := IArr 2); [|reflexivity|reflexivity].
    apply va with (c' := 1); [constructor|]. eexists. split; vm_compute; reflexivity.
Qed.

Print Assumptions c34_equal.
Print Assumptions c34_copy.
Print Assumptions c34_one_content.
Print Assumptions c34_document.
Print Assumptions c34_text.
Print Assumptions c35_apart.
Print Assumptions c35_independent.
Print Assumptions c35_text.
Print Assumptions c36_errors.
Print Assumptions c36_returned.
Print Assumptions c36_panics.
Print Assumptions c36_never_panics_refuted.
Print Assumptions c36_ends.
Print Assumptions c36_cyclic.
Print Assumptions c36_content.
