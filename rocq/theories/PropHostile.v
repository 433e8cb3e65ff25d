(** * C89: documents with strings that end in a backslash *)
From Coq Require Import Ascii String List NArith ZArith Bool Lia.
From Verif Require Import GoStr GoNum GoFloat Heap Common ValueModel ArrayModel MapModel JsonModel ParserModel
  SpecDict SpecNum SpecWorld Inv World Reach SpecFloat SpecDoc SpecText SpecToken SpecParse SpecRender SpecRound SpecHostile
  RenderFacts ShowFacts RoundFacts JsonFacts ExampleState ExampleJson HostileFacts HostileTop.
Import ListNotations.

(** If the number of strings, keys, errors and texts in a document that end in a
    backslash is odd, Parse never accepts what ToJSONString writes for it. *)
Theorem c89_odd : forall X h F m d b,
  reachable X h -> escape_ok X -> rep_obj (x_typed_nil X) (view h) F (IMap m) d ->
  proper (x_is64 X) d -> Nat.odd (slashes d) = true ->
  exists n s, (forall fuel, n <= fuel -> map_ToJSONString fuel X h m (Some b) = Ok (Some (b ++ s), []))
    /\ shows d s
    /\ forall h' m' h2, reachable X h' -> Parse X s h' <> Ok (GVal m', h2).
Proof. exact odd_slashes. Qed.

(** With at most one of them, what Parse accepts is what was written. *)
Theorem c89_one : forall X h F m d b h',
  reachable X h -> escape_ok X -> rep_obj (x_typed_nil X) (view h) F (IMap m) d ->
  proper (x_is64 X) d -> ordinary d -> slashes d <= 1 -> reachable X h' ->
  exists n s, (forall fuel, n <= fuel -> map_ToJSONString fuel X h m (Some b) = Ok (Some (b ++ s), []))
    /\ shows d s
    /\ forall d', parses X h' s (GVal d') -> comes_back d d'.
Proof. exact one_slash. Qed.

(** But one is enough to make Parse panic: a string that ends in a backslash, then any
    harmless member, then any string with a harmless key. *)
Theorem c89_panic_refuted : forall X h F m b before k1 t1 k2 d2 k3 t3 rest h',
  reachable X h -> escape_ok X ->
  rep_obj (x_typed_nil X) (view h) F (IMap m)
    (DMap (before ++ (k1, dstr (t1 ++ [c_bs])) :: (k2, d2) :: (k3, dstr t3) :: rest)) ->
  proper (x_is64 X) (DMap before) -> writable (DMap before) -> safe k1 ->
  harmless k2 -> proper (x_is64 X) d2 -> harmless_value d2 -> harmless k3 -> reachable X h' ->
  exists n s, (forall fuel, n <= fuel -> map_ToJSONString fuel X h m (Some b) = Ok (Some (b ++ s), []))
    /\ Parse X s h' = Panic.
Proof. exact slash_panic. Qed.

(** Two of them can lose a member silently: the last one is not in the document read,
    and the one before it has another string. *)
Theorem c89_lost_refuted : forall X h F m b before k1 t1 k2 t2 h',
  reachable X h -> escape_ok X ->
  rep_obj (x_typed_nil X) (view h) F (IMap m)
    (DMap (before ++ [(k1, dstr (t1 ++ [c_bs])); (k2, dstr (t2 ++ [c_bs]))])) ->
  proper (x_is64 X) (DMap before) -> writable (DMap before) -> safe k1 -> is_ascii t1 ->
  harmless k2 -> harmless t2 -> reachable X h' ->
  exists n s before', (forall fuel, n <= fuel -> map_ToJSONString fuel X h m (Some b) = Ok (Some (b ++ s), []))
    /\ comes_back (DMap before) (DMap before')
    /\ parses X h' s (GVal (DMap (before' ++ [(k1, dstr (t1 ++ [c_dq; c_com]))]))).
Proof. exact slash_lost. Qed.

(** And two of them can put a member with a chosen value, and of another type than
    string, into the document read. *)
Theorem c89_forged_refuted : forall X h F m b before k1 t1 k2 v dv rest h',
  reachable X h -> escape_ok X ->
  rep_obj (x_typed_nil X) (view h) F (IMap m)
    (DMap (before ++ (k1, dstr (t1 ++ [c_bs])) :: (k2, dstr ([c_col] ++ v ++ [c_com; c_bs])) :: rest)) ->
  proper (x_is64 X) (DMap (before ++ rest)) -> writable (DMap (before ++ rest)) -> safe k1 -> is_ascii t1 ->
  harmless k2 -> token_ok true v -> lexeme v (TokDoc dv) ->
  ~ In [c_col] (k1 :: map fst (before ++ rest)) -> reachable X h' ->
  exists n s before' rest', (forall fuel, n <= fuel -> map_ToJSONString fuel X h m (Some b) = Ok (Some (b ++ s), []))
    /\ comes_back (DMap before) (DMap before') /\ comes_back (DMap rest) (DMap rest')
    /\ parses X h' s (GVal (DMap (before' ++ (k1, dstr (t1 ++ [c_dq; c_com])) :: ([c_col], dv) :: rest'))).
Proof. exact slash_forged. Qed.

(** ** Examples *)
Definition sets (l : list (str * scalar)) : list api := ANewMap :: map (fun kv => AMapSet 1 (fst kv) (IScal (snd kv))) l.
Definition state_of (l : list (str * scalar)) : heap := match run_calls (sets l) [] with Ok (_, h) => h | _ => [] end.

Definition ex_id : str * scalar := (lit "id", SInt KInt 7).
Definition panic_members : list (str * scalar) :=
  [ex_id; (lit "path", SStr (lit "C:\")); (lit "role", SStr (lit "guest")); (lit "name", SStr (lit "Kim"))].
Definition lost_members : list (str * scalar) := [ex_id; (lit "path", SStr (lit "C:\")); (lit "home", SStr (lit "home\"))].
Definition forged_members : list (str * scalar) :=
  [ex_id; (lit "path", SStr (lit "C:\")); (lit "note", SStr (lit ":-12,\")); (lit "role", SStr (lit "guest"))].
Definition doc_of_members (l : list (str * scalar)) : doc := DMap (map (fun kv => (fst kv, DScal (snd kv))) l).

Ltac reached := match goal with |- reachable std_ext (state_of ?l) =>
  let E := fresh in assert (E : exists os, run_calls (sets l) [] = Ok (os, state_of l)) by (eexists; vm_compute; reflexivity);
  destruct E as [? E]; refine (MapFacts.reachable_run_calls _ (sets l) [] _ (state_of l) (R_start _) _ E);
  apply ok_callsb_ok; vm_compute; reflexivity end.

Example c89_panic_ex : reachable std_ext (state_of panic_members) /\ escape_ok std_ext
  /\ rep_obj true (view (state_of panic_members)) (fun _ => True) (IMap 1)
       (DMap ([(lit "id", DScal (SInt KInt 7))] ++ (lit "path", dstr (lit "C:" ++ [c_bs])) :: (lit "role", dstr (lit "guest"))
               :: (lit "name", dstr (lit "Kim")) :: []))
  /\ slashes (doc_of_members panic_members) = 1 /\ ordinary (doc_of_members panic_members)
  /\ proper true (DMap [(lit "id", DScal (SInt KInt 7))]) /\ writable (DMap [(lit "id", DScal (SInt KInt 7))])
  /\ safe (lit "path") /\ harmless (lit "role") /\ harmless_value (dstr (lit "guest")) /\ harmless (lit "name")
  /\ map_ToJSONString 9 std_ext (state_of panic_members) 1 (Some [])
     = Ok (Some (lit "{""id"":7,""path"":""C:\"",""role"":""guest"",""name"":""Kim""}"), []).
Proof.
  assert (H : forall s, forallb (fun c => negb (existsb (Ascii.eqb c) [c_dq; c_lb; c_rb; c_ls; c_rs; c_bs; c_col])) s = true -> harmless s).
  { intros s E. apply Forall_forall. intros c I. rewrite forallb_forall in E. specialize (E c I). apply negb_true_iff in E.
    assert (N : forall x, In x [c_dq; c_lb; c_rb; c_ls; c_rs; c_bs; c_col] -> c <> x).
    { intros x J ->. assert (existsb (Ascii.eqb x) [c_dq; c_lb; c_rb; c_ls; c_rs; c_bs; c_col] = true); [|congruence].
      apply existsb_exists. exists x. split; auto. apply Ascii.eqb_refl. }
    unfold structural. cbn in N. split; [|split; auto 10]. intros Q. destruct Q as [Q|[Q|[Q|[Q|Q]]]]; revert Q; apply N; auto 8. }
  assert (A : forall s, forallb (fun c => N.ltb (N_of_ascii c) 128) s = true -> is_ascii s).
  { intros s E. apply Forall_forall. intros c I. rewrite forallb_forall in E. now apply N.ltb_lt, E. }
  split; [reached|]. split; [intros k; reflexivity|]. split; [apply (doc_of_rep _ 9); vm_compute; reflexivity|].
  split; [reflexivity|]. split.
  { constructor. repeat apply Forall_cons; try apply Forall_nil; cbn [fst snd]; (split; [apply A; reflexivity|split; [intros []|]]).
    - apply or_scal; [exact Logic.I|discriminate].
    - apply or_str, A. reflexivity.
    - apply or_str, A. reflexivity.
    - apply or_str, A. reflexivity. }
  split; [apply properb_ok; vm_compute; reflexivity|]. split; [apply writableb_ok; vm_compute; reflexivity|].
  split; [apply safeb_ok; reflexivity|]. split; [apply H; reflexivity|]. split; [apply H; reflexivity|]. split; [apply H; reflexivity|].
  vm_compute. reflexivity.
Qed.

Example c89_lost_ex : reachable std_ext (state_of lost_members)
  /\ rep_obj true (view (state_of lost_members)) (fun _ => True) (IMap 1)
       (DMap ([(lit "id", DScal (SInt KInt 7))] ++ [(lit "path", dstr (lit "C:" ++ [c_bs])); (lit "home", dstr (lit "home" ++ [c_bs]))]))
  /\ map_ToJSONString 9 std_ext (state_of lost_members) 1 (Some [])
     = Ok (Some (lit "{""id"":7,""path"":""C:\"",""home"":""home\""}"), []).
Proof. split; [reached|]. split; [apply (doc_of_rep _ 9); vm_compute; reflexivity|]. vm_compute. reflexivity. Qed.

Example c89_forged_ex : reachable std_ext (state_of forged_members)
  /\ rep_obj true (view (state_of forged_members)) (fun _ => True) (IMap 1)
       (DMap ([(lit "id", DScal (SInt KInt 7))] ++ (lit "path", dstr (lit "C:" ++ [c_bs]))
                :: (lit "note", dstr ([c_col] ++ lit "-12" ++ [c_com; c_bs])) :: [(lit "role", dstr (lit "guest"))]))
  /\ token_ok true (lit "-12") /\ lexeme (lit "-12") (TokDoc (DScal (SInt KInt8 (-12))))
  /\ map_ToJSONString 9 std_ext (state_of forged_members) 1 (Some [])
     = Ok (Some (lit "{""id"":7,""path"":""C:\"",""note"":"":-12,\"",""role"":""guest""}"), [])
  /\ exists m' h', Parse std_ext (lit "{""id"":7,""path"":""C:\"",""note"":"":-12,\"",""role"":""guest""}") [] = Ok (GVal (Some m'), h')
     /\ map_ToJSONString 9 std_ext h' m' (Some [])
        = Ok (Some (lit "{""id"":7,""path"":""C:\"","","":"":-12,""role"":""guest""}"), []).
Proof.
  assert (D : Forall is_digit (lit "12")).
  { repeat (apply Forall_cons; [split; vm_compute; discriminate|]). apply Forall_nil. }
  split; [reached|]. split; [apply (doc_of_rep _ 9); vm_compute; reflexivity|].
  split; [apply (ParseMore.digit_token (lit "12") true); [exact D|discriminate]|].
  split.
  { apply (lx_neg (lit "12") 12 KInt8).
    - split; [discriminate|]. split; [exact D|reflexivity].
    - destruct (TypedFacts.narrow_signed_narrowest (-12)) as (k & E & K); [lia|]. vm_compute in E. inversion E; subst. exact K. }
  split; [vm_compute; reflexivity|]. eexists _, _. split; [vm_compute; reflexivity|vm_compute; reflexivity].
Qed.

Print Assumptions c89_odd.
Print Assumptions c89_one.
Print Assumptions c89_panic_refuted.
Print Assumptions c89_lost_refuted.
Print Assumptions c89_forged_refuted.
