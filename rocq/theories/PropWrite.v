(** * The text of arbitrary contents: C52 *)
From Coq Require Import Ascii String List NArith ZArith Bool Lia.
From Verif Require Import GoStr GoNum GoFloat Heap Common ValueModel ArrayModel MapModel JsonModel ParserModel
  SpecDict SpecWorld Inv World Reach MapFacts SpecDoc SpecRender SpecParse SpecClone SpecHistory SpecWrite WriteFacts ExampleState ExampleJson.
Import ListNotations.
Local Open Scope nat_scope.

(** ToJSONString of a map with any content: the text, and one error for each value
    that has none. *)
Theorem c52_map : forall X h F m k b,
  reachable X h -> escape_ok X -> holds_obj (view h) F (IMap m) k -> proper_content X k -> ~ panics X k ->
  exists t c n, writes X k t c
    /\ forall fuel, n <= fuel -> map_ToJSONString fuel X h m (Some b) = Ok (Some (b ++ t), repeat EUnsupported c).
Proof. exact (fun X h F m k b => json_writes X h F KMap m k b). Qed.

Theorem c52_array : forall X h F a k b,
  reachable X h -> escape_ok X -> holds_obj (view h) F (IArr a) k -> proper_content X k -> ~ panics X k ->
  exists t c n, writes X k t c
    /\ forall fuel, n <= fuel -> arr_ToJSONString fuel X h a (Some b) = Ok (Some (b ++ t), repeat EUnsupported c).
Proof. exact (fun X h F a k b => json_writes X h F KArr a k b). Qed.

(** There is one such text and one such number. *)
Theorem c52_one_text : forall X k t n u m, writes X k t n -> writes X k u m -> t = u /\ n = m.
Proof. exact writes_fun. Qed.

(** It panics on the contents with a nil pointer the environment does not call nil,
    and on no others. *)
Theorem c52_panics : forall X h F m k b,
  reachable X h -> escape_ok X -> holds_obj (view h) F (IMap m) k -> panics X k ->
  exists n, forall fuel, n <= fuel -> map_ToJSONString fuel X h m (Some b) = Panic.
Proof. exact (fun X h F m k b => json_panics X h F KMap m k b). Qed.

Theorem c52_array_panics : forall X h F a k b,
  reachable X h -> escape_ok X -> holds_obj (view h) F (IArr a) k -> panics X k ->
  exists n, forall fuel, n <= fuel -> arr_ToJSONString fuel X h a (Some b) = Panic.
Proof. exact (fun X h F a k b => json_panics X h F KArr a k b). Qed.

(** Every kind of value in one map; the three without a text leave holes, in an array,
    in a map and in a list of errors. *)
Definition write_calls : list api :=
  [ANewMap; ANewArray; AArrAppend 2 (ITime (Some 3)); AArrAppend 2 (ITimeV 3); AArrAppend 2 (IErr (lit "e")); AArrAppendValue 2 None;
   AMapSet 1 (lit "l") (IArr 2); AMapSet 1 (lit "f") (IFunc 0); AMapSet 1 (lit "g") (IPFunc (Some 1));
   AMapSet 1 (lit "o") (IOther (lit "chan int") (Some 0)); AMapSet 1 (lit "s") (IPStrs (Some [lit "x"; lit "y"])); AMapSet 1 (lit "p") (IPMap None);
   AMapSet 1 (lit "i") (IScal (SInt KInt (-5))); AMapSet 1 (lit "x") (IOther (lit "exec.ExitError") (Some 1));
   AMapSet 1 (lit "e") (IErrs [Plain (lit "a"); NoError; Typed (lit "*fmt.wrapError") (lit "b"); Typed (lit "*url.Error") (lit "c")]);
   AMapSet 1 (lit "n") (IPErr (Some NoError)); AMapSet 1 (lit "t") (ITime None)].
Definition write_state : heap := match run_calls write_calls [] with Ok (_, h) => h | _ => [] end.
Definition write_content : content :=
  HMap [(lit "l", HArr [HLeaf (ITime (Some 3)); HLeaf (ITimeV 3); HLeaf (IErr (lit "e")); HNone]); (lit "f", HLeaf (IFunc 0)); (lit "g", HLeaf (IPFunc (Some 1)));
        (lit "o", HLeaf (IOther (lit "chan int") (Some 0))); (lit "s", HLeaf (IPStrs (Some [lit "x"; lit "y"]))); (lit "p", HLeaf (IPMap None)); (lit "i", HLeaf (IScal (SInt KInt (-5))));
        (lit "x", HLeaf (IOther (lit "exec.ExitError") (Some 1)));
        (lit "e", HLeaf (IErrs [Plain (lit "a"); NoError; Typed (lit "*fmt.wrapError") (lit "b"); Typed (lit "*url.Error") (lit "c")]));
        (lit "n", HLeaf (IPErr (Some NoError))); (lit "t", HLeaf (ITime None))].
Definition strict_ext : ext :=
  {| x_is64 := x_is64 std_ext; x_typed_nil := false; x_known := x_known std_ext; x_is_array := x_is_array std_ext;
     x_escape := x_escape std_ext; x_time := x_time std_ext; x_sprint := x_sprint std_ext; x_errorf := x_errorf std_ext |}.
Example c52_ex : (forall X, reachable X write_state) /\ escape_ok std_ext /\ escape_ok strict_ext
  /\ holds_obj (view write_state) (fun _ => True) (IMap 1) write_content
  /\ proper_content std_ext write_content /\ ~ panics std_ext write_content /\ panics strict_ext write_content
  /\ map_ToJSONString 9 std_ext write_state 1 (Some [])
     = Ok (Some (lit "{""l"":[""" ++ x_time std_ext 3 ++ lit """,,""e"",null],""f"":""func(string) []error"",""g"":""*func(string) []error"",""o"":,""s"":[""x"",""y""],""p"":null,""i"":-5,""x"":"""",""e"":[""a"",null,,""c""],""n"":""%!s(<nil>)"",""t"":null}"),
           [EUnsupported; EUnsupported; EUnsupported])
  /\ map_ToJSONString 9 strict_ext write_state 1 (Some []) = Panic.
Proof.
  split.
  { intros X. assert (E : exists os, run_calls write_calls [] = Ok (os, write_state)) by (eexists; vm_compute; reflexivity).
    destruct E as [os E]. refine (reachable_run_calls _ write_calls [] os write_state (R_start _) _ E).
    apply ok_callsb_ok. vm_compute. reflexivity. }
  split; [intros t; reflexivity|]. split; [intros t; reflexivity|].
  split.
  { eapply ho_map; [now left|exact I|vm_compute; reflexivity|].
    repeat (first [apply hm_nil | apply hm_cons; [eapply hv_some; [exact I|vm_compute; reflexivity|]|]]);
      first [apply ho_leaf; reflexivity | idtac].
    eapply ho_arr; [now left|exact I|vm_compute; reflexivity|].
    repeat (first [apply he_nil | apply he_cons; [first [apply hv_none | eapply hv_some; [exact I|vm_compute; reflexivity|apply ho_leaf; reflexivity]]|]]). }
  split.
  { apply pc_map. repeat (first [apply Forall_nil | apply Forall_cons; [cbn [snd]|]]); try (apply pc_leaf; intros s [=]).
    - apply pc_arr. repeat (first [apply Forall_nil | apply Forall_cons]); first [apply pc_none | apply pc_leaf; intros s [=]].
    - subst s. apply fitsb_ok. reflexivity. }
  split.
  { intros P. assert (T : x_typed_nil std_ext = true) by reflexivity. clear - P T. induction P; auto; congruence. }
  split.
  { eapply (pa_map _ (lit "p")); [|apply (pa_leaf _ (IPMap None)); [reflexivity|exact I|discriminate|discriminate|discriminate]].
    do 5 right. now left. }
  split; vm_compute; reflexivity.
Qed.

Print Assumptions c52_map.
Print Assumptions c52_array.
Print Assumptions c52_one_text.
Print Assumptions c52_panics.
Print Assumptions c52_array_panics.
