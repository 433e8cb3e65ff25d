(** * Properties of ToJSONString, and of Parse after it: C01, C02, C14, C32, C33, C42, C43 *)
From Coq Require Import Ascii String List NArith ZArith Bool Lia.
From Verif Require Import GoStr GoNum GoFloat Heap Common ValueModel ArrayModel MapModel JsonModel ParserModel
  SpecDict SpecNum SpecWorld Inv World Reach SpecFloat SpecDoc SpecText SpecToken SpecParse SpecRender SpecRound SpecUtf8 SpecJson
  RenderFacts ShowFacts CycleFacts RoundFacts RoundMore SerialFacts JsonFacts ExampleState ExampleJson.
Import ListNotations.

(** ** C01: round trip *)

(** [h] is the state in which the map is written and [h'] any state in which the
    text is read; [b] is what the builder held before. *)
Theorem c01_round_trip : forall X h F m d b h',
  reachable X h -> escape_ok X -> rep_obj (x_typed_nil X) (view h) F (IMap m) d ->
  proper (x_is64 X) d -> writable d -> reachable X h' ->
  exists n s d', (forall fuel, n <= fuel -> map_ToJSONString fuel X h m (Some b) = Ok (Some (b ++ s), []))
    /\ shows d s /\ comes_back d d' /\ parses X h' s (GVal d').
Proof. exact round_trip. Qed.

(** The document read is determined by the document written. *)
Theorem c01_determined : forall d a b, comes_back d a -> comes_back d b -> a = b.
Proof. exact comes_back_fun. Qed.

Example c01_ex : reachable std_ext json_state /\ escape_ok std_ext
  /\ rep_obj (x_typed_nil std_ext) (view json_state) (fun _ => True) (IMap 1) json_doc
  /\ proper (x_is64 std_ext) json_doc /\ writable json_doc
  /\ map_ToJSONString 9 std_ext json_state 1 (Some (lit "> "))
     = Ok (Some (lit "> {""s"":""say \""hi\"" \o/"",""n"":-70000,""a"":[1.500000,null,null],""m"":{""e"":[""x"",""y\""z""],""p\"""":null},""again"":{""e"":[""x"",""y\""z""],""p\"""":null},""b"":true}"), []).
Proof.
  split; [apply json_reachable|]. split; [intros k; reflexivity|]. split; [apply json_rep|].
  split; [apply json_proper|]. split; [apply json_writable|vm_compute; reflexivity].
Qed.

(** ** C02: stability *)

(** Without float64, writing what was read gives the text that was read. *)
Theorem c02_same_text : forall X h F m d b h' b',
  reachable X h -> escape_ok X -> rep_obj (x_typed_nil X) (view h) F (IMap m) d ->
  proper (x_is64 X) d -> writable d -> no_float64 d -> reachable X h' ->
  exists n s m' h2,
    (forall fuel, n <= fuel -> map_ToJSONString fuel X h m (Some b) = Ok (Some (b ++ s), []))
    /\ Parse X s h' = Ok (GVal (Some m'), h2)
    /\ (forall fuel, n <= fuel -> map_ToJSONString fuel X h2 m' (Some b') = Ok (Some (b' ++ s), [])).
Proof. exact write_read. Qed.

(** With any floats, the document read the first time is read again the second time. *)
Theorem c02_same_document : forall X h F m d b h' b' h'',
  reachable X h -> escape_ok X -> rep_obj (x_typed_nil X) (view h) F (IMap m) d ->
  proper (x_is64 X) d -> writable d -> reachable X h' -> reachable X h'' ->
  exists n s d' m' h2 s2,
    (forall fuel, n <= fuel -> map_ToJSONString fuel X h m (Some b) = Ok (Some (b ++ s), []))
    /\ Parse X s h' = Ok (GVal (Some m'), h2) /\ rep_obj NoNils (view h2) (new_in h') (IMap m') d'
    /\ (forall fuel, n <= fuel -> map_ToJSONString fuel X h2 m' (Some b') = Ok (Some (b' ++ s2), []))
    /\ parses X h'' s2 (GVal d').
Proof. exact second_trip. Qed.

Example c02_ex : reachable std_ext json_state /\ escape_ok std_ext
  /\ rep_obj (x_typed_nil std_ext) (view json_state) (fun _ => True) (IMap 1) json_doc
  /\ proper (x_is64 std_ext) json_doc /\ writable json_doc /\ no_float64 json_doc.
Proof.
  split; [apply json_reachable|]. split; [intros k; reflexivity|]. split; [apply json_rep|].
  split; [apply json_proper|]. split; [apply json_writable|apply json_no_float64].
Qed.

(** With a float64 the text can change: 16777217 is read as the float32 16777216. *)
Definition f64_calls : list api := [ANewMap; AMapSet 1 (lit "x") (IScal (SFlt F64 (FFin false 4503599895805952 (-28))))].
Definition f64_state : heap := match run_calls f64_calls [] with Ok (_, h) => h | _ => [] end.
Theorem c02_float64_refuted :
  exists h m d s h' m',
    reachable std_ext h /\ rep_obj true (view h) (fun _ => True) (IMap m) d /\ proper true d /\ writable d
    /\ map_ToJSONString 9 std_ext h m (Some []) = Ok (Some s, [])
    /\ Parse std_ext s h = Ok (GVal (Some m'), h')
    /\ exists s', map_ToJSONString 9 std_ext h' m' (Some []) = Ok (Some s', []) /\ s' <> s.
Proof.
  exists f64_state, 1. eexists (DMap [(lit "x", DScal (SFlt F64 (FFin false 4503599895805952 (-28))))]), _, _, _.
  split.
  { assert (E : exists os, run_calls f64_calls [] = Ok (os, f64_state)) by (eexists; vm_compute; reflexivity).
    destruct E as [os E]. refine (MapFacts.reachable_run_calls _ f64_calls [] os f64_state (R_start _) _ E).
    apply ok_callsb_ok. vm_compute. reflexivity. }
  split; [apply (doc_of_rep _ 9); vm_compute; reflexivity|].
  split; [apply properb_ok; vm_compute; reflexivity|].
  split; [apply writableb_ok; vm_compute; reflexivity|].
  split; [vm_compute; reflexivity|]. split; [vm_compute; reflexivity|].
  eexists. split; [vm_compute; reflexivity|]. vm_compute. discriminate.
Qed.

(** ** C14: strings ending in a backslash *)

(** The text of every map with one string, when that ends in a backslash, is not
    accepted by Parse. *)
Theorem c14_refuted : forall X h F m b k t,
  reachable X h -> escape_ok X ->
  rep_obj (x_typed_nil X) (view h) F (IMap m) (DMap [(k, DScal (SStr (t ++ [c_bs])))]) -> safe k ->
  exists n s, (forall fuel, n <= fuel -> map_ToJSONString fuel X h m (Some b) = Ok (Some (b ++ s), []))
    /\ forall h' m' h2, reachable X h' -> Parse X s h' <> Ok (GVal m', h2).
Proof. exact backslash_lost. Qed.

(** Every other ASCII string is read back. *)
Theorem c14_other_strings : forall X h F m b k t h',
  reachable X h -> escape_ok X ->
  rep_obj (x_typed_nil X) (view h) F (IMap m) (DMap [(k, DScal (SStr t))]) -> safe k -> safe t -> reachable X h' ->
  exists n s, (forall fuel, n <= fuel -> map_ToJSONString fuel X h m (Some b) = Ok (Some (b ++ s), []))
    /\ parses X h' s (GVal (DMap [(k, DScal (SStr t))])).
Proof. exact string_kept. Qed.

Definition bs_calls : list api := [ANewMap; AMapSet 1 (lit "k") (IScal (SStr (lit "a\\")))].
Definition bs_state : heap := match run_calls bs_calls [] with Ok (_, h) => h | _ => [] end.
Example c14_ex : reachable std_ext bs_state
  /\ rep_obj true (view bs_state) (fun _ => True) (IMap 1) (DMap [(lit "k", DScal (SStr (lit "a\" ++ [c_bs])))]) /\ safe (lit "k").
Proof.
  split.
  { assert (E : exists os, run_calls bs_calls [] = Ok (os, bs_state)) by (eexists; vm_compute; reflexivity).
    destruct E as [os E]. refine (MapFacts.reachable_run_calls _ bs_calls [] os bs_state (R_start _) _ E).
    apply ok_callsb_ok. vm_compute. reflexivity. }
  split; [apply (doc_of_rep _ 9); vm_compute; reflexivity|]. apply safeb_ok. reflexivity.
Qed.

(** ** C32: the text *)

Theorem c32_map : forall X h F m d b,
  reachable X h -> escape_ok X -> rep_obj (x_typed_nil X) (view h) F (IMap m) d -> proper (x_is64 X) d ->
  exists n s, shows d s /\ forall fuel, n <= fuel -> map_ToJSONString fuel X h m (Some b) = Ok (Some (b ++ s), []).
Proof. exact map_text. Qed.

Theorem c32_array : forall X h F a d b,
  reachable X h -> escape_ok X -> rep_obj (x_typed_nil X) (view h) F (IArr a) d -> proper (x_is64 X) d ->
  exists n s, shows d s /\ forall fuel, n <= fuel -> arr_ToJSONString fuel X h a (Some b) = Ok (Some (b ++ s), []).
Proof. exact arr_text. Qed.

(** A document has one text. *)
Theorem c32_one_text : forall d s t, shows d s -> shows d t -> s = t.
Proof. exact shows_fun. Qed.

Theorem c32_nil_builder : forall fuel X h m,
  map_ToJSONString fuel X h m None = Ok (None, [EBuilder]) /\ arr_ToJSONString fuel X h m None = Ok (None, [EBuilder]).
Proof. split; reflexivity. Qed.

Example c32_ex : reachable std_ext json_state /\ escape_ok std_ext
  /\ rep_obj (x_typed_nil std_ext) (view json_state) (fun _ => True) (IMap 1) json_doc
  /\ (exists d, rep_obj (x_typed_nil std_ext) (view json_state) (fun _ => True) (IArr 5) d /\ proper true d)
  /\ proper (x_is64 std_ext) json_doc.
Proof.
  split; [apply json_reachable|]. split; [intros k; reflexivity|]. split; [apply json_rep|].
  split; [|apply json_proper]. exists (DArr [DScal (SFlt F32 (FFin false 12582912 (-23))); DNull; DNull]).
  split; [apply (doc_of_rep _ 9); vm_compute; reflexivity|apply properb_ok; vm_compute; reflexivity].
Qed.

(** ** C33: validity *)

Theorem c33_valid : forall X h F m d b,
  reachable X h -> escape_ok X -> rep_obj (x_typed_nil X) (view h) F (IMap m) d -> proper (x_is64 X) d -> valid d ->
  exists n s, json_text s /\ forall fuel, n <= fuel -> map_ToJSONString fuel X h m (Some b) = Ok (Some (b ++ s), []).
Proof. exact text_valid. Qed.

Example c33_ex : reachable std_ext json_state /\ valid (DMap [(lit "k""", DArr [DScal (SStr (utf8 8364)); DTexts [lit "x"]; DNull])]).
Proof.
  assert (C : forall l t, t = concat (map utf8 l) -> forallb (fun c => (32 <=? c)%N && (c <? 55296)%N && negb (c =? 92)%N) l = true -> clean t).
  { intros l t -> H. exists l. split; [reflexivity|]. rewrite forallb_forall in H. apply Forall_forall. intros c I. apply H in I.
    rewrite !andb_true_iff, negb_true_iff, N.leb_le, N.ltb_lt, N.eqb_neq in I. unfold scalar_value. lia. }
  split; [apply json_reachable|]. apply vd_map. constructor; [|constructor]. split; [apply (C [107; 34]%N); vm_compute; reflexivity|].
  apply vd_arr. constructor; [apply vd_str; apply (C [8364]%N); vm_compute; reflexivity|]. constructor; [|constructor; [apply vd_null|constructor]].
  apply vd_texts. constructor; [apply (C [120]%N); vm_compute; reflexivity|constructor].
Qed.

(** A backslash, a control character and an infinity. *)
Definition bad_calls (i : iface) : list api := [ANewMap; AMapSet 1 (lit "k") i].
Theorem c33_refuted : forall i, In i [IScal (SStr [c_bs]); IScal (SStr (lit "\x")); IScal (SStr [c_tab]); IScal (SFlt F32 (FInf false)); IScal (SFlt F64 FNaN)] ->
  exists h s, reachable std_ext h /\ (exists os, run_calls (bad_calls i) [] = Ok (os, h))
    /\ map_ToJSONString 9 std_ext h 1 (Some []) = Ok (Some s, []) /\ ~ json_text s.
Proof.
  intros i H. assert (exists h s, (exists os, run_calls (bad_calls i) [] = Ok (os, h)) /\ ok_callsb (bad_calls i) (view []) = true
    /\ map_ToJSONString 9 std_ext h 1 (Some []) = Ok (Some s, []) /\ scan SOut s <> Some SOut) as (h & s & [os E] & K & J & S).
  { cbn in H. repeat (destruct H as [<-|H]; [eexists _, _; split; [eexists; vm_compute; reflexivity|]; split; [vm_compute; reflexivity|];
      split; [vm_compute; reflexivity|]; vm_compute; discriminate|]). destruct H. }
  exists h, s. split; [|split; [exists os; exact E|split; [exact J|]]].
  - refine (MapFacts.reachable_run_calls _ (bad_calls i) [] os h (R_start _) (ok_callsb_ok _ _ K) E).
  - intros Q. apply S. now apply scan_text.
Qed.

(** ** C42: termination *)

Theorem c42_terminates : forall X h m b,
  reachable X h -> has (w_map (view h)) m -> acyclic (view h) m ->
  exists n r, r <> NoFuel /\ forall fuel, n <= fuel -> map_ToJSONString fuel X h m b = r.
Proof. exact map_terminates. Qed.

Theorem c42_array : forall X h a b,
  reachable X h -> has (w_arr (view h)) a -> acyclic (view h) a ->
  exists n r, r <> NoFuel /\ forall fuel, n <= fuel -> arr_ToJSONString fuel X h a b = r.
Proof. exact arr_terminates. Qed.

Theorem c42_diverges : forall X h m b,
  reachable X h -> escape_ok X -> x_typed_nil X = true ->
  (exists p c q, object_at (view h) m p c /\ object_at (view h) c q c /\ q <> []) -> has (w_map (view h)) m ->
  forall fuel, map_ToJSONString fuel X h m (Some b) = NoFuel.
Proof. exact map_diverges. Qed.

Theorem c42_exactly : forall X h m b,
  reachable X h -> escape_ok X -> x_typed_nil X = true -> has (w_map (view h)) m ->
  ((exists n, map_ToJSONString n X h m (Some b) <> NoFuel) <-> acyclic (view h) m).
Proof. exact map_halts_iff. Qed.

(** An acyclic map with a shared part, and a map in an array in itself. *)
Definition loop_calls : list api := [ANewMap; ANewArray; AArrAppend 2 (IPMap (Some 1)); AMapSet 1 (lit "k") (IArr 2)].
Definition loop_state : heap := match run_calls loop_calls [] with Ok (_, h) => h | _ => [] end.
Example c42_ex : (reachable std_ext json_state /\ has (w_map (view json_state)) 1 /\ acyclic (view json_state) 1)
  /\ reachable std_ext loop_state /\ has (w_map (view loop_state)) 1
  /\ exists p c q, object_at (view loop_state) 1 p c /\ object_at (view loop_state) c q c /\ q <> [].
Proof.
  split; [|split; [|split]].
  - split; [apply json_reachable|]. split; [apply hasb_ok; vm_compute; reflexivity|].
    apply (map_halts_iff std_ext json_state 1 []); [apply json_reachable|intros k; reflexivity|reflexivity|apply hasb_ok; vm_compute; reflexivity|].
    exists 9. vm_compute. discriminate.
  - assert (E : exists os, run_calls loop_calls [] = Ok (os, loop_state)) by (eexists; vm_compute; reflexivity).
    destruct E as [os E]. refine (MapFacts.reachable_run_calls _ loop_calls [] os loop_state (R_start _) _ E).
    apply ok_callsb_ok. vm_compute. reflexivity.
  - apply hasb_ok. vm_compute. reflexivity.
  - exists [], 1, [PKey (lit "k"); PIndex 0]. split; [constructor|]. split; [|discriminate].
    eapply oa_in with (v := 3); [|vm_compute; reflexivity|reflexivity].
    apply (va _ _ [PKey (lit "k")] (PIndex 0) 2 3).
    + eapply oa_in with (v := 4); [|vm_compute; reflexivity|reflexivity].
      apply (va _ _ [] (PKey (lit "k")) 1 4); [constructor|]. eexists. split; vm_compute; reflexivity.
    + eexists. split; vm_compute; reflexivity.
Qed.

(** ** C43: floats *)

Theorem c43_six_digits : forall X h F m b k fk neg a e,
  reachable X h -> escape_ok X -> rep_obj (x_typed_nil X) (view h) F (IMap m) (DMap [(k, DScal (SFlt fk (FFin neg a e)))]) ->
  normal_form fk a e ->
  exists n t, fixed_text neg a e t
    /\ forall fuel, n <= fuel -> map_ToJSONString fuel X h m (Some b) = Ok (Some (b ++ [c_lb] ++ quote k ++ [c_col] ++ t ++ [c_rb]), []).
Proof. exact float_text. Qed.

Theorem c43_stable : forall X h F m b k neg a e h' b',
  reachable X h -> escape_ok X -> rep_obj (x_typed_nil X) (view h) F (IMap m) (DMap [(k, DScal (SFlt F32 (FFin neg a e)))]) ->
  normal_form F32 a e -> safe k -> reachable X h' ->
  exists n s m' h2,
    (forall fuel, n <= fuel -> map_ToJSONString fuel X h m (Some b) = Ok (Some (b ++ s), []))
    /\ Parse X s h' = Ok (GVal (Some m'), h2)
    /\ (forall fuel, n <= fuel -> map_ToJSONString fuel X h2 m' (Some b') = Ok (Some (b' ++ s), [])).
Proof. exact float_stable. Qed.

(** 3.75 has the text 3.750000. *)
Example c43_ex : normal_form F32 15728640 (-22) /\ fixed_text false 15728640 (-22) (lit "3.750000").
Proof.
  split; [apply normalb_ok; vm_compute; reflexivity|].
  replace (lit "3.750000") with (GoFloat.format_f (FFin false 15728640 (-22))) by (vm_compute; reflexivity).
  apply fixed_text_format; [lia|]. apply Z.leb_le. vm_compute. reflexivity.
Qed.

Print Assumptions c01_round_trip.
Print Assumptions c01_determined.
Print Assumptions c02_same_text.
Print Assumptions c02_same_document.
Print Assumptions c02_float64_refuted.
Print Assumptions c14_refuted.
Print Assumptions c14_other_strings.
Print Assumptions c32_map.
Print Assumptions c32_array.
Print Assumptions c32_one_text.
Print Assumptions c32_nil_builder.
Print Assumptions c33_valid.
Print Assumptions c33_refuted.
Print Assumptions c42_terminates.
Print Assumptions c42_array.
Print Assumptions c42_diverges.
Print Assumptions c42_exactly.
Print Assumptions c43_six_digits.
Print Assumptions c43_stable.
