(** * What a call does to documents: C50 *)
From Coq Require Import Ascii String List NArith ZArith Bool Lia.
From Verif Require Import GoStr GoNum GoFloat Heap Common ValueModel ArrayModel MapModel
  SpecDict SpecWorld Inv World Reach MapFacts SpecDoc SpecClone SpecEdit EditFacts ExampleState ExampleJson.
Import ListNotations.
Local Open Scope nat_scope.

(** The map, array, value or variable [x] that a call changes stands, after the call,
    for its old document with that one edit made. *)
Theorem c50_edit : forall X h tn c x d e o h',
  reachable X h -> ok_call (view h) c -> target c = Some x ->
  stands_for tn (view h) x d -> stored tn (view h) x c e -> run_call c h = Ok (o, h') ->
  stands_for tn (view h') x (edited c e d).
Proof. exact edit_effect. Qed.

(** In every document that contains [x], the edit shows at exactly the places where [x]
    is found, and nothing else is different. *)
Theorem c50_everywhere : forall X h tn c x d e o h' i y dy,
  reachable X h -> ok_call (view h) c -> target c = Some x ->
  stands_for tn (view h) x d -> stored tn (view h) x c e -> run_call c h = Ok (o, h') ->
  refers i = Some y -> rep_obj tn (view h) (fun _ => True) i dy ->
  exists t, dy = fill t d
    /\ rep_obj tn (view h') (fun _ => True) i (fill t (edited c e d))
    /\ forall p, hole_at t p <-> occurs (view h) y p x.
Proof. exact edit_everywhere. Qed.

(** A document without [x] stays as it was, whatever is stored in [x]. *)
Theorem c50_elsewhere : forall X h tn c x o h' i d,
  reachable X h -> ok_call (view h) c -> target c = Some x -> run_call c h = Ok (o, h') ->
  rep_obj tn (view h) (fun l => l <> x) i d -> rep_obj tn (view h') (fun l => l <> x) i d.
Proof. exact edit_frame. Qed.

(** A call that changes no object changes no document. *)
Theorem c50_reading : forall X h tn c o h' i d,
  reachable X h -> ok_call (view h) c -> target c = None -> run_call c h = Ok (o, h') ->
  rep_obj tn (view h) (fun _ => True) i d -> rep_obj tn (view h') (fun _ => True) i d.
Proof. exact read_frame. Qed.

(** The array 0 is stored twice in the map 2, beside a pointer to the variable 3. *)
Definition edit_calls : list api :=
  [ANewArray; ANewMap; ANewVar (SInt KInt 5); AMapSet 2 (lit "x") (IArr 0); AMapSet 2 (lit "v") (IPtr (TyInt KInt) (Some 3));
   AMapSet 2 (lit "y") (IPArr (Some 0)); AArrAppend 0 (IPtr (TyInt KInt) (Some 3))].
Definition edit_state : heap := match run_calls edit_calls [] with Ok (_, h) => h | _ => [] end.
Definition five := DScal (SInt KInt 5).
Definition edit_doc (a v : doc) : doc := DMap [(lit "x", a); (lit "v", v); (lit "y", a)].

Example c50_ex : reachable std_ext edit_state
  /\ rep_obj true (view edit_state) (fun _ => True) (IMap 2) (edit_doc (DArr [five]) five)
  /\ stands_for true (view edit_state) 0 (DArr [five])
  /\ ok_call (view edit_state) (AArrAppend 0 (IScal (SBool true)))
  /\ stored true (view edit_state) 0 (AArrAppend 0 (IScal (SBool true))) (DScal (SBool true)).
Proof.
  split; [|split; [|split; [|split]]].
  - assert (E : exists os, run_calls edit_calls [] = Ok (os, edit_state)) by (eexists; vm_compute; reflexivity).
    destruct E as [os E]. refine (reachable_run_calls _ edit_calls [] os edit_state (R_start _) _ E).
    apply ok_callsb_ok. vm_compute. reflexivity.
  - apply doc_of_rep with (n := 5). vm_compute. reflexivity.
  - apply sf_arr. apply doc_of_rep with (n := 5). vm_compute. reflexivity.
  - split; [eexists; vm_compute; reflexivity|exact I].
  - apply rep_scal.
Qed.
(** The template of the map around the array, and around the variable. *)
Example c50_fill :
  edit_doc (DArr [five]) five = fill (TMap [(lit "x", THole); (lit "v", TDoc five); (lit "y", THole)]) (DArr [five])
  /\ edit_doc (DArr [five]) five = fill (TMap [(lit "x", TArr [THole]); (lit "v", THole); (lit "y", TArr [THole])]) five.
Proof. split; reflexivity. Qed.
Example c50_after : exists h', run_call (AVarSet 3 (SInt KInt 6)) edit_state = Ok (ODone, h')
  /\ rep_obj true (view h') (fun _ => True) (IMap 2) (edit_doc (DArr [DScal (SInt KInt 6)]) (DScal (SInt KInt 6))).
Proof.
  eexists. split; [vm_compute; reflexivity|]. apply doc_of_rep with (n := 5). vm_compute. reflexivity.
Qed.

Print Assumptions c50_edit.
Print Assumptions c50_everywhere.
Print Assumptions c50_elsewhere.
Print Assumptions c50_reading.
