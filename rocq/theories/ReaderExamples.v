(** * Examples for C71 *)
From Coq Require Import Ascii String List NArith ZArith Bool Lia.
From Verif Require Import GoStr GoNum GoFloat Heap Common ValueModel ArrayModel MapModel JsonModel ParserModel
  SpecDict SpecNum NumLemmas SpecWorld Inv World Reach MapFacts SpecFloat SpecUtf8 SpecDoc SpecText SpecToken SpecRender SpecJson SpecRfc SpecReader
  ShowFacts JsonFacts ReaderFacts ExampleState ExampleJson.
Import ListNotations.

Definition state_of (cs : list api) : heap := match run_calls cs [] with Ok (_, h) => h | _ => [] end.
Lemma state_reachable cs os h : run_calls cs [] = Ok (os, h) -> ok_callsb cs (view []) = true -> state_of cs = h /\ reachable std_ext h.
Proof.
  intros E K. split; [unfold state_of; now rewrite E|].
  exact (reachable_run_calls _ cs [] os h (R_start _) (ok_callsb_ok _ _ K) E).
Qed.
Lemma std_escape : escape_ok std_ext.
Proof. intros k. reflexivity. Qed.

Lemma writes_of F cs d b s :
  reachable std_ext (state_of cs) -> rep_obj (x_typed_nil std_ext) (view (state_of cs)) F (IMap 1) d -> proper (x_is64 std_ext) d ->
  shows d s -> writes std_ext (state_of cs) (IMap 1) b s.
Proof.
  intros R Rep P S. destruct (writes_shows _ _ _ _ _ b R std_escape Rep P (ex_intro _ 1 (or_introl eq_refl))) as (s' & W & S').
  now rewrite (shows_fun _ _ _ S S').
Qed.
Lemma state_ok cs : ok_callsb cs (view []) = true -> (exists os, run_calls cs [] = Ok (os, state_of cs)) -> reachable std_ext (state_of cs).
Proof. intros K [os E]. now apply (state_reachable cs os). Qed.

(** A string of a backslash and an n. *)
Definition newline_calls : list api := [ANewMap; AMapSet 1 (lit "k") (IScal (SStr (lit "\n")))].
Definition newline_doc : doc := DMap [(lit "k", DScal (SStr (lit "\n")))].
Lemma newline_state : reachable std_ext (state_of newline_calls).
Proof. apply state_ok; [vm_compute; reflexivity|]. eexists. vm_compute. reflexivity. Qed.
Lemma newline_rep : rep_obj true (view (state_of newline_calls)) (fun _ => True) (IMap 1) newline_doc.
Proof. apply (doc_of_rep _ 9). vm_compute. reflexivity. Qed.
Lemma newline_proper : proper true newline_doc.
Proof. apply properb_ok. reflexivity. Qed.
Lemma newline_lawful : lawful newline_doc.
Proof.
  constructor. constructor; [|constructor]. split.
  - exists [lit "k"]. split; [reflexivity|]. constructor; [|constructor]. left. exists 107%N. split; [reflexivity|]. unfold scalar_value. lia.
  - constructor. exists [lit "\n"]. split; [reflexivity|]. constructor; [|constructor]. right. left. exists "n"%char. split; [reflexivity|]. cbn. tauto.
Qed.
Lemma newline_not_valid : ~ valid newline_doc.
Proof.
  intros V. inversion V as [| | | | | | | |? F]; subst. inversion F as [|? ? [_ V'] _]; subst. cbn [snd] in V'.
  inversion V' as [| | | |? C| | | |]; subst. apply decodes_clean in C. apply decode_cost in C. vm_compute in C. lia.
Qed.
Lemma misread_example : exists h d s v,
  reachable std_ext h /\ rep_obj (x_typed_nil std_ext) (view h) (fun _ => True) (IMap 1) d /\ proper (x_is64 std_ext) d
  /\ writes std_ext h (IMap 1) [] s /\ says_value s v /\ ~ conveys d v.
Proof.
  assert (K : exists l, IMap 1 = IMap l \/ IMap 1 = IArr l) by (exists 1; now left).
  destruct (writes_shows std_ext _ _ (IMap 1) newline_doc [] newline_state std_escape newline_rep newline_proper K) as (s & W & S).
  destruct (proj1 (RfcFacts.grammar_iff s) (lawful_output _ _ newline_lawful S)) as [v V].
  exists (state_of newline_calls), newline_doc, s, v. split; [exact newline_state|]. split; [exact newline_rep|]. split; [exact newline_proper|].
  split; [exact W|]. split; [exact V|]. intros C. apply newline_not_valid. apply (conveys_iff _ s S). eauto.
Qed.

(** Strings made to add a member. *)
Definition hostile1 : str := lit "\"",""admin"":true,""x"":""\".
Definition hostile2 : str := lit ":true,".
Definition hostile_calls : list api :=
  [ANewMap; AMapSet 1 (lit "k") (IScal (SStr hostile1)); ANewArray; AArrAppend 3 (IScal (SStr hostile2)); AMapSet 1 (lit "l") (IArr 3)].
Definition hostile_doc : doc := DMap [(lit "k", DScal (SStr hostile1)); (lit "l", DArr [DScal (SStr hostile2)])].
Lemma hostile_example : exists h d s,
  reachable std_ext h /\ rep_obj (x_typed_nil std_ext) (view h) (fun _ => True) (IMap 1) d /\ proper (x_is64 std_ext) d
  /\ d = hostile_doc /\ writes std_ext h (IMap 1) [] s /\ ~ json_text s.
Proof.
  assert (R : reachable std_ext (state_of hostile_calls)) by (apply state_ok; [vm_compute; reflexivity|eexists; vm_compute; reflexivity]).
  assert (Rep : rep_obj true (view (state_of hostile_calls)) (fun _ => True) (IMap 1) hostile_doc) by (apply (doc_of_rep _ 9); vm_compute; reflexivity).
  assert (P : proper true hostile_doc) by (apply properb_ok; reflexivity).
  eexists _, hostile_doc, _. split; [exact R|]. split; [exact Rep|]. split; [exact P|]. split; [reflexivity|]. split.
  - eapply writes_of; eauto. apply (sh_map _ [quote hostile1; [c_ls] ++ commas [quote hostile2] ++ [c_rs]]).
    constructor; [constructor|]. constructor; [|constructor]. apply (sh_arr _ [quote hostile2]). repeat constructor.
  - intros T. apply scan_text in T. vm_compute in T. discriminate.
Qed.

Definition reader_calls : list api :=
  [ANewMap; AMapSet 1 (lit "k""") (IScal (SStr (lit "a""b"))); ANewArray; AArrAppend 3 (IScal (SInt KInt8 (-5))); AArrAppend 3 INil;
   AMapSet 1 (lit "l") (IArr 3)].
Definition reader_doc : doc := DMap [(lit "k""", DScal (SStr (lit "a""b"))); (lit "l", DArr [DScal (SInt KInt8 (-5)); DNull])].
Lemma reader_example : exists h d s,
  reachable std_ext h /\ escape_ok std_ext /\ rep_obj (x_typed_nil std_ext) (view h) (fun _ => True) (IMap 1) d
  /\ proper (x_is64 std_ext) d /\ valid d /\ writes std_ext h (IMap 1) [] s
  /\ s = lit "{""k\"""":""a\""b"",""l"":[-5,null]}".
Proof.
  assert (R : reachable std_ext (state_of reader_calls)) by (apply state_ok; [vm_compute; reflexivity|eexists; vm_compute; reflexivity]).
  assert (Rep : rep_obj true (view (state_of reader_calls)) (fun _ => True) (IMap 1) reader_doc) by (apply (doc_of_rep _ 9); vm_compute; reflexivity).
  assert (P : proper true reader_doc) by (apply properb_ok; reflexivity).
  assert (C : forall l t, t = concat (map utf8 l) -> forallb (fun c => (32 <=? c)%N && (c <? 55296)%N && negb (c =? 92)%N) l = true -> clean t).
  { intros l t -> H. exists l. split; [reflexivity|]. rewrite forallb_forall in H. apply Forall_forall. intros c I. apply H in I.
    rewrite !andb_true_iff, negb_true_iff, N.leb_le, N.ltb_lt, N.eqb_neq in I. unfold scalar_value. lia. }
  eexists _, reader_doc, _. split; [exact R|]. split; [exact std_escape|]. split; [exact Rep|]. split; [exact P|]. split; [|split; [|reflexivity]].
  - constructor. constructor; [split; [apply (C [107; 34]%N); vm_compute; reflexivity|constructor; apply (C [97; 34; 98]%N); vm_compute; reflexivity]|].
    constructor; [|constructor]. split; [apply (C [108]%N); vm_compute; reflexivity|]. constructor. repeat constructor.
  - assert (F2 : Forall2 (fun kd t => shows (snd kd) t) [(lit "k""", DScal (SStr (lit "a""b"))); (lit "l", DArr [DScal (SInt KInt8 (-5)); DNull])]
      [quote (lit "a""b"); [c_ls] ++ commas [lit "-5"; lit "null"] ++ [c_rs]]).
    { constructor; [constructor|]. constructor; [|constructor]. apply (sh_arr _ [lit "-5"; lit "null"]). constructor; [|repeat constructor].
      constructor. exists (lit "5"). split; [reflexivity|]. split; [split; [discriminate|]; split; [repeat constructor; cbn; lia|reflexivity]|]. right. discriminate. }
    eapply writes_of; eauto. exact (sh_map _ _ F2).
Qed.
