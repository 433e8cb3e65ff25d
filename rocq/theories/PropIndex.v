(** * Strings and maps by index, comparison with strings: C53, C54 *)
From Coq Require Import Ascii String List NArith ZArith Bool Lia.
From Verif Require Import GoStr GoNum GoFloat Heap Common ValueModel ArrayModel MapModel JsonModel ParserModel
  SpecDict SpecWorld Inv World Reach MapFacts SpecString IndexFacts ExampleState.
Import ListNotations.

(** GetStringValue(i) and GetMap(i) of an array report an index outside it. *)
Theorem c53_range : forall X h a l idx,
  reachable X h -> w_arr (view h) a = Some l -> (idx < 0 \/ Z.of_nat (length l) <= idx)%Z ->
  arr_GetStringValue X h a idx = Ok (GErr [if (idx <? 0)%Z then EIndexNeg else EIndexRange])
  /\ arr_GetMap X h a idx = Ok (GErr [if (idx <? 0)%Z then EIndexNeg else EIndexRange]).
Proof. exact index_outside. Qed.

(** GetStringValue(i) returns the string at [i], reports an error if there is nothing,
    and panics on anything else. *)
Theorem c53_string : forall X h a l idx i,
  reachable X h -> w_arr (view h) a = Some l -> (0 <= idx)%Z ->
  (exists v, nth_error l (Z.to_nat idx) = Some (Some v) /\ w_val (view h) v = Some i) ->
  arr_GetStringValue X h a idx
  = match text_kind_of X (view h) i with Text t => Ok (GVal t) | Unset => Ok (GErr [EElem]) | Wrong => Panic end.
Proof. exact index_string. Qed.

(** GetMap(i) returns the map at [i] and reports an error for everything else. *)
Theorem c53_map : forall X h a l idx i,
  reachable X h -> w_arr (view h) a = Some l -> (0 <= idx)%Z ->
  (exists v, nth_error l (Z.to_nat idx) = Some (Some v) /\ w_val (view h) v = Some i) ->
  arr_GetMap X h a idx
  = Ok (match map_kind_of X i with AMap m => GVal m | UnsetMap => GErr [ENilValue] | WrongMap => GErr [EElem] end).
Proof. exact index_map. Qed.

(** Both panic on a nil [*Value] element; every other element is a value. *)
Theorem c53_nil : forall X h a l idx,
  reachable X h -> w_arr (view h) a = Some l -> (0 <= idx)%Z -> nth_error l (Z.to_nat idx) = Some None ->
  arr_GetStringValue X h a idx = Panic /\ arr_GetMap X h a idx = Panic.
Proof. exact index_nil. Qed.
Theorem c53_elements : forall X h a l n v,
  reachable X h -> w_arr (view h) a = Some l -> nth_error l n = Some (Some v) -> exists i, w_val (view h) v = Some i.
Proof. exact elem_value. Qed.

(** IsValueEqualToString: equality of strings, nothing being equal to a nil argument
    only; with a string argument it panics on any other object. *)
Theorem c54_equal : forall X h v i s,
  reachable X h -> w_val (view h) v = Some i ->
  value_IsEqualToString X h v s
  = match text_kind_of X (view h) i, s with
    | Unset, None => Ok true
    | Unset, Some _ => Ok false
    | _, None => Ok false
    | Text t, Some u => Ok (str_eqb t u)
    | Wrong, Some _ => Panic
    end.
Proof. exact equal_spec. Qed.

(** IsEmptyString holds for the empty string only, and never panics. *)
Theorem c54_empty : forall X h v i,
  reachable X h -> w_val (view h) v = Some i ->
  value_IsEmptyString X h v = Ok (match text_kind_of X (view h) i with Text [] => true | _ => false end).
Proof. exact empty_spec. Qed.

(** GetStringValue returns the string, reports an error for nothing, and panics otherwise. *)
Theorem c54_string : forall X h v i,
  reachable X h -> w_val (view h) v = Some i ->
  value_GetStringValue X h v
  = match text_kind_of X (view h) i with
    | Text t => Ok (GVal t)
    | Unset => Ok (GErr [ENilValue])
    | Wrong => Panic
    end.
Proof. exact string_spec. Qed.

(** An array with a string, a number, null, a map, a nil [*Value] and a pointer to a string. *)
Definition idx_calls : list api :=
  [ANewArray; AArrAppend 0 (IScal (SStr (lit "s"))); AArrAppend 0 (IScal (SInt KInt 4)); AArrAppend 0 INil;
   ANewMap; AArrAppend 0 (IMap 5); AArrAppendValue 0 None; ANewVar (SStr []); AArrAppend 0 (IPtr TyStr (Some 7))].
Definition idx_state : heap := match run_calls idx_calls [] with Ok (_, h) => h | _ => [] end.
Example c53_ex : reachable std_ext idx_state
  /\ (exists l, w_arr (view idx_state) 0 = Some l /\ nth_error l 4 = Some None
       /\ (exists v, nth_error l 0 = Some (Some v) /\ w_val (view idx_state) v = Some (IScal (SStr (lit "s"))))
       /\ (exists v, nth_error l 3 = Some (Some v) /\ w_val (view idx_state) v = Some (IMap 5)))
  /\ List.map (arr_GetStringValue std_ext idx_state 0) [-1; 0; 1; 2; 3; 4; 5; 6]%Z
     = [Ok (GErr [EIndexNeg]); Ok (GVal (lit "s")); Panic; Ok (GErr [EElem]); Panic; Panic; Ok (GVal []); Ok (GErr [EIndexRange])]
  /\ List.map (arr_GetMap std_ext idx_state 0) [-1; 0; 1; 2; 3; 4; 5; 6]%Z
     = [Ok (GErr [EIndexNeg]); Ok (GErr [EElem]); Ok (GErr [EElem]); Ok (GErr [ENilValue]); Ok (GVal 5); Panic; Ok (GErr [EElem]); Ok (GErr [EIndexRange])].
Proof.
  split.
  { assert (E : exists os, run_calls idx_calls [] = Ok (os, idx_state)) by (eexists; vm_compute; reflexivity).
    destruct E as [os E]. refine (reachable_run_calls _ idx_calls [] os idx_state (R_start _) _ E).
    apply ok_callsb_ok. vm_compute. reflexivity. }
  split.
  { eexists. split; [vm_compute; reflexivity|]. split; [reflexivity|].
    split; eexists; (split; [vm_compute; reflexivity|vm_compute; reflexivity]). }
  split; vm_compute; reflexivity.
Qed.
Example c54_ex :
  (exists v, w_val (view idx_state) v = Some (IScal (SInt KInt 4)) /\ value_IsEqualToString std_ext idx_state v (Some (lit "4")) = Panic
     /\ value_IsEqualToString std_ext idx_state v None = Ok false /\ value_IsEmptyString std_ext idx_state v = Ok false)
  /\ (exists v, w_val (view idx_state) v = Some (IPtr TyStr (Some 7)) /\ value_IsEqualToString std_ext idx_state v (Some []) = Ok true
     /\ value_IsEmptyString std_ext idx_state v = Ok true)
  /\ (exists v, w_val (view idx_state) v = Some INil /\ value_IsEqualToString std_ext idx_state v None = Ok true
     /\ value_IsEqualToString std_ext idx_state v (Some []) = Ok false).
Proof.
  split; [exists 2; repeat split; vm_compute; reflexivity|].
  split; [exists 8; repeat split; vm_compute; reflexivity|].
  exists 3; repeat split; vm_compute; reflexivity.
Qed.

Print Assumptions c53_range.
Print Assumptions c53_string.
Print Assumptions c53_map.
Print Assumptions c53_nil.
Print Assumptions c53_elements.
Print Assumptions c54_equal.
Print Assumptions c54_empty.
Print Assumptions c54_string.
