(** * Concrete states for the theorems about the texts of the errors of ToJSONString, of the
      conversions and of Clone *)
From Coq Require Import Ascii String List NArith ZArith Bool Lia.
From Verif Require Import GoStr GoNum GoFloat Heap Common ValueModel ArrayModel MapModel JsonModel SpecDict SpecNum SpecWorld Inv World Reach
  MapFacts ExampleState ExampleAlike SpecClone SpecHistory SpecWrite SaysModel SpecSays ToldModel SpecTold.
Import ListNotations.

(** A map 1 with a channel, an array 2 of a nil map, a time and a list of errors, and a nil
    map. *)
Definition told_state : heap := heap_of
  [ANewMap; ANewArray; AMapSet 1 (lit "c") (IOther (lit "chan int") (Some 0)); AArrAppend 2 (IPMap None); AArrAppend 2 (ITimeV 3);
   AArrAppend 2 (IErrs [Plain (lit "a"); Typed (lit "*fmt.wrapError") (lit "b"); Typed (lit "*os.PathError") (lit "c")]);
   AArrAppend 2 (IStrs [lit "x"]); AMapSet 1 (lit "l") (IArr 2); AMapSet 1 (lit "m") (IPMap None)].
Definition told_content : content :=
  HMap [(lit "c", HLeaf (IOther (lit "chan int") (Some 0)));
        (lit "l", HArr [HLeaf (IPMap None); HLeaf (ITimeV 3);
                        HLeaf (IErrs [Plain (lit "a"); Typed (lit "*fmt.wrapError") (lit "b"); Typed (lit "*os.PathError") (lit "c")]);
                        HLeaf (IStrs [lit "x"])]);
        (lit "m", HLeaf (IPMap None))].
Lemma told_reachable X : reachable X told_state.
Proof. apply heap_of_reachable; [vm_compute; reflexivity|]. vm_compute. eauto. Qed.
Lemma told_held : content_at told_state (fun _ => True) KMap 1 told_content.
Proof.
  cbn [content_at]. eapply ho_map; [now left|exact I|vm_compute; reflexivity|].
  repeat (first [apply hm_nil | apply hm_cons; [eapply hv_some; [exact I|vm_compute; reflexivity|]|]]);
    first [apply ho_leaf; reflexivity | idtac].
  eapply ho_arr; [now left|exact I|vm_compute; reflexivity|].
  repeat (first [apply he_nil | apply he_cons; [first [apply hv_none | eapply hv_some; [exact I|vm_compute; reflexivity|apply ho_leaf; reflexivity]]|]]).
Qed.
Lemma told_proper X : proper_content X told_content.
Proof.
  apply pc_map. repeat (first [apply Forall_nil | apply Forall_cons; [cbn [snd]|]]); try (apply pc_leaf; intros s [=]).
  apply pc_arr. repeat (first [apply Forall_nil | apply Forall_cons]); first [apply pc_none | apply pc_leaf; intros s [=]].
Qed.

(** The environment that does not call nil pointers nil, and one that rejects the key l. *)
Definition strict_ext : ext :=
  {| x_is64 := x_is64 std_ext; x_typed_nil := false; x_known := x_known std_ext; x_is_array := x_is_array std_ext;
     x_escape := x_escape std_ext; x_time := x_time std_ext; x_sprint := x_sprint std_ext; x_errorf := x_errorf std_ext |}.
Definition picky_ext : ext :=
  {| x_is64 := x_is64 std_ext; x_typed_nil := true; x_known := x_known std_ext; x_is_array := x_is_array std_ext;
     x_escape := fun s => if str_eqb s (lit "l") then None else x_escape std_ext s;
     x_time := x_time std_ext; x_sprint := x_sprint std_ext; x_errorf := x_errorf std_ext |}.
