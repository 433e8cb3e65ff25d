(** * The string any Go value is converted to: C64 *)
From Coq Require Import Ascii String List NArith ZArith Bool Lia.
From Verif Require Import GoStr GoNum GoFloat Heap Common ValueModel ArrayModel MapModel JsonModel ParserModel
  SpecDict SpecNum SpecWorld Inv World Reach MapFacts SpecDoc SpecRender SpecClone SpecErr SpecWrite SpecConvert ConvertFacts ExampleState.
Import ListNotations.
Local Open Scope nat_scope.

(** The conversion gives the text, an error, or a panic, as specified. *)
Theorem c64_convert : forall X h i,
  reachable X h -> ok_object (view h) i ->
  (forall o s, looked_at (view h) i = Some o -> scalar_of (view h) o = Some s -> proper_scalar (x_is64 X) s) ->
  exists r, says X (view h) i r
    /\ conv_string X h i = match r with Says t => Ok (GVal t) | NoText => Ok (GErr [EUnsupported]) | Crash => Panic end.
Proof. exact convert. Qed.

(** The specification leaves no choice. *)
Theorem c64_one : forall X w i r q, says X w i r -> says X w i q -> r = q.
Proof. exact says_fun. Qed.

(** GetErrors on an array of any elements. *)
Theorem c64_elements : forall X h m k a l i,
  reachable X h -> has (w_map (view h)) m -> i = IArr a \/ i = IPArr (Some a) ->
  SpecWorld.object_at (view h) m k = Some i -> w_arr (view h) a = Some l ->
  (forall v j s, In (Some v) l -> w_val (view h) v = Some j -> scalar_of (view h) j = Some s -> proper_scalar (x_is64 X) s) ->
  exists rs, Forall2 (fun o r => says X (view h) (IPVal o) r) l rs
    /\ (In Crash rs -> map_GetErrors X h m k = Panic)
    /\ (~ In Crash rs ->
        map_GetErrors X h m k = Ok (if textless_said rs =? 0 then GVal (map Plain (texts_said rs)) else GErr (repeat EUnsupported (textless_said rs)))).
Proof. exact elements_said. Qed.

(** Elements of many kinds that all have a text; then nil is added, which has none,
    though a nil [*Value] has. *)
Definition print_ext : ext :=
  {| x_is64 := x_is64 std_ext; x_typed_nil := true; x_known := x_known std_ext; x_is_array := x_is_array std_ext;
     x_escape := x_escape std_ext; x_time := x_time std_ext; x_errorf := x_errorf std_ext;
     x_sprint := fun i => match i with IOther _ d => lit "exit status " ++ format_int (Z.of_nat match d with Some n => n | None => 0 end) | _ => lit "%!s(?)" end |}.
Definition convert_calls : list api :=
  [ANewMap; ANewArray; AArrAppend 2 (IScal (SStr (lit "a""b"))); AArrAppend 2 (IScal (SInt KInt8 (-5))); AArrAppend 2 (IErr (lit "e"));
   AArrAppend 2 (IOther (lit "*exec.ExitError") (Some 3)); AArrAppendValue 2 None; AArrAppend 2 (IOther foreign (Some 0));
   ANewVar (SBool true); AArrAppend 2 (IPtr TyBool (Some 8)); AMapSet 1 (lit "l") (IArr 2)].
Definition convert_state : heap := match run_calls convert_calls [] with Ok (_, h) => h | _ => [] end.
Definition convert_state2 : heap := match run_calls (convert_calls ++ [AArrAppend 2 INil]) [] with Ok (_, h) => h | _ => [] end.
Example c64_ex :
  (forall X, reachable X convert_state /\ reachable X convert_state2)
  /\ has (w_map (view convert_state)) 1
  /\ SpecWorld.object_at (view convert_state) 1 (lit "l") = Some (IArr 2)
  /\ w_arr (view convert_state) 2 = Some [Some 3; Some 4; Some 5; Some 6; None; Some 7; Some 9]
  /\ says print_ext (view convert_state) (IPVal (Some 6)) (Says (lit "exit status 3"))
  /\ map_GetErrors print_ext convert_state 1 (lit "l")
     = Ok (GVal (map Plain [lit "a""b"; lit "-5"; lit "e"; lit "exit status 3"; lit "null"; foreign; lit "true"]))
  /\ says print_ext (view convert_state2) (IPVal (Some 11)) NoText
  /\ map_GetErrors print_ext convert_state2 1 (lit "l") = Ok (GErr [EUnsupported]).
Proof.
  split.
  { intros X. split.
    - assert (E : exists os, run_calls convert_calls [] = Ok (os, convert_state)) by (eexists; vm_compute; reflexivity).
      destruct E as [os E]. refine (reachable_run_calls _ convert_calls [] os convert_state (R_start _) _ E).
      apply ok_callsb_ok. vm_compute. reflexivity.
    - assert (E : exists os, run_calls (convert_calls ++ [AArrAppend 2 INil]) [] = Ok (os, convert_state2)) by (eexists; vm_compute; reflexivity).
      destruct E as [os E]. refine (reachable_run_calls _ _ [] os convert_state2 (R_start _) _ E).
      apply ok_callsb_ok. vm_compute. reflexivity. }
  split; [eexists; vm_compute; reflexivity|]. split; [vm_compute; reflexivity|]. split; [vm_compute; reflexivity|].
  split.
  { eapply sa_object; [reflexivity|vm_compute; reflexivity|]. apply hs_error. right. right. now left. }
  split; [vm_compute; reflexivity|]. split.
  { eapply sa_object; [reflexivity|vm_compute; reflexivity|]. now apply hs_none. }
  vm_compute; reflexivity.
Qed.

Print Assumptions c64_convert.
Print Assumptions c64_one.
Print Assumptions c64_elements.
