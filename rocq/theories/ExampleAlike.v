(** * Concrete states for the theorems about programs *)
From Coq Require Import Ascii String List NArith ZArith Bool Lia.
From Verif Require Import GoStr GoNum GoFloat Heap Common ValueModel ArrayModel MapModel JsonModel
  SpecDict SpecWorld Inv World Reach MapFacts ParserModel ExampleState SpecAlike ClientModel TimeModel AlikeRead AlikeTop.
Import ListNotations.

Definition heap_of (cs : list api) : heap := match run_calls cs [] with Ok (_, h) => h | _ => [] end.
Lemma heap_of_reachable X cs : ok_callsb cs (view []) = true -> (exists os h, run_calls cs [] = Ok (os, h)) -> reachable X (heap_of cs).
Proof.
  intros K (os & h & E). unfold heap_of. rewrite E.
  apply (reachable_run_calls X cs [] os h); auto using R_start. now apply ok_callsb_ok.
Qed.

(** A map with an array under two keys: made with a detour, and made directly after other objects. *)
Definition detour : heap := heap_of
  [ANewMap; AMapSetScalarValue 1 (lit "x") (SInt KUInt8 7); ANewArray; AMapSet 1 (lit "a") (IPArr (Some 4));
   AMapSet 1 (lit "b") (IScal (SBool true)); AMapRemoveKey 1 (lit "x"); AMapSet 1 (lit "c") (IPArr (Some 4))].
Definition direct : heap := heap_of
  [ANewVar (SStr (lit "?")); ANewArray; ANewMap; AMapSet 3 (lit "a") (IPArr (Some 1));
   AMapSet 3 (lit "b") (IScal (SBool true)); AMapSet 3 (lit "c") (IPArr (Some 1))].
Definition detour_direct : links := [(1, 3); (4, 1); (5, 4); (6, 5); (7, 6)].

Lemma detour_reachable X : reachable X detour.
Proof. apply heap_of_reachable; [vm_compute; reflexivity|]. vm_compute. eauto. Qed.
Lemma direct_reachable X : reachable X direct.
Proof. apply heap_of_reachable; [vm_compute; reflexivity|]. vm_compute. eauto. Qed.

Lemma detour_alike : alike detour_direct (view detour) (view direct).
Proof.
  split.
  - intros a b a' b' H K. unfold detour_direct in *. cbn in H, K.
    repeat match goal with [ H : _ \/ _ |- _ ] => destruct H end; try contradiction;
      repeat match goal with [ H : (_, _) = (_, _) |- _ ] => inversion H; clear H; subst end; lia.
  - intros a b H. unfold detour_direct in H. cbn in H.
    repeat match goal with [ H : _ \/ _ |- _ ] => destruct H end; try contradiction;
      repeat match goal with [ H : (_, _) = (_, _) |- _ ] => inversion H; clear H; subst end.
    + eapply so_map; [vm_compute; reflexivity|vm_compute; reflexivity|].
      constructor; [|constructor; [|constructor; [|constructor]]]; split; cbn; auto 10.
    + eapply so_arr; [vm_compute; reflexivity|vm_compute; reflexivity|]. constructor.
    + eapply so_val; [vm_compute; reflexivity|vm_compute; reflexivity|]. apply sh_parr. cbn; auto 10.
    + eapply so_val; [vm_compute; reflexivity|vm_compute; reflexivity|]. now apply sh_plain.
    + eapply so_val; [vm_compute; reflexivity|vm_compute; reflexivity|]. apply sh_parr. cbn; auto 10.
Qed.

Lemma std_prints_no_address : prints_no_address std_ext.
Proof. intros p i j _. reflexivity. Qed.

(** A program that does a list of calls, and stops after them. *)
Definition script (qs : list request) : client := fun s => nth_error qs (length s).

(** It takes the value of a, takes the array out, appends a number and prints the map. *)
Definition appender : client := script
  [QApi (AMapGetValue 0 (lit "a")); QApi (AValGetObject 1); QApi (AArrAppend 2 (IScal (SInt KUInt8 5)));
   QApi (AMapGetValue 0 (lit "c")); QApi (AValGetObject 3); QMapText 20 0 (Some [])].

(** Two separate maps. *)
Definition two_maps : heap := heap_of
  [ANewMap; AMapSet 1 (lit "a") (IScal (SBool true)); ANewMap; AMapSet 4 (lit "b") (IPMap (Some 4))].
Lemma two_maps_reachable X : reachable X two_maps.
Proof. apply heap_of_reachable; [vm_compute; reflexivity|]. vm_compute. eauto. Qed.
Lemma two_maps_first : self_contained (view two_maps) [1; 2].
Proof.
  intros a [<-|[<-|[]]].
  - left. eexists. split; [vm_compute; reflexivity|]. intros k b [E|[]]. inversion E; subst. cbn; auto.
  - right; right; left. eexists. split; [vm_compute; reflexivity|]. intros b [].
Qed.
Lemma two_maps_second : self_contained (view two_maps) [4; 5].
Proof.
  intros a [<-|[<-|[]]].
  - left. eexists. split; [vm_compute; reflexivity|]. intros k b [E|[]]. inversion E; subst. cbn; auto.
  - right; right; left. eexists. split; [vm_compute; reflexivity|]. intros b [<-|[]]. cbn; auto.
Qed.

(** With a text that shows the address of a variable. *)
Definition shows_address : ext :=
  {| x_is64 := true; x_typed_nil := true; x_known := fun _ => false;
     x_is_array := fun _ => false; x_escape := fun k => Some (escape_quotes k);
     x_time := fun _ => lit "2023-01-01 00:00:00.000000";
     x_sprint := fun i => match i with IPtr _ (Some p) => repeat "0"%char p | _ => [] end; x_errorf := fun s => s |}.
Definition one_var : heap := heap_of [ANewVar (SBool true)].
Lemma one_var_reachable X : reachable X one_var.
Proof. apply heap_of_reachable; [vm_compute; reflexivity|]. vm_compute. eauto. Qed.
Definition address_reader : client := script
  [QApi (ANewVar (SStr (lit "s"))); QApi (ANewValue (IPtr TyStr (Some 0))); QApi (ANewValue (IPVal (Some 1)));
   QToString (IPVal (Some 2))].

Lemma address_seen L : fst (play shows_address L 9 address_reader [] [] []) <> fst (play shows_address L 9 address_reader [] [] one_var).
Proof. vm_compute. intros E. discriminate E. Qed.

Definition no_time : timelib := TimeLib (fun _ => Panic) (fun _ _ => Panic) 0.
Lemma address_refuted : ~ (forall X L h h' n (c : client),
  reachable X h -> reachable X h' -> fst (play X L n c [] [] h) = fst (play X L n c [] [] h')).
Proof.
  intros H. apply (address_seen no_time).
  apply H; [apply R_start|apply one_var_reachable].
Qed.

Definition reparser : client := script [QParse (lit "{""a"":[1,{}]}"); QMapText 20 0 (Some [])].
Definition remover : client := script [QApi (AMapRemoveKey 0 (lit "a")); QApi (AMapGetKeys 0)].

Lemma ex_detour : forall L,
  prints_no_address std_ext /\ reachable std_ext detour /\ reachable std_ext direct
  /\ alike detour_direct (view detour) (view direct)
  /\ Forall2 (fun a b => In (a, b) detour_direct) [1] [3]
  /\ fst (play std_ext L 9 appender [] [1] detour)
     = [Ok (FOut (OValue (Some 0)), [1]); Ok (FOut (OObj (IPArr (Some 0))), [2]); Ok (FOut ODone, []);
        Ok (FOut (OValue (Some 0)), [3]); Ok (FOut (OObj (IPArr (Some 0))), [2]);
        Ok (FText (Some (lit "{""a"":[5],""b"":true,""c"":[5]}"), []), [])]
  /\ fst (play std_ext L 9 appender [] [3] direct) = fst (play std_ext L 9 appender [] [1] detour).
Proof.
  intros L. repeat apply conj.
  - exact std_prints_no_address.
  - apply detour_reachable.
  - apply direct_reachable.
  - exact (proj1 detour_alike).
  - exact (proj2 detour_alike).
  - constructor; [cbn; auto|constructor].
  - vm_compute. reflexivity.
  - vm_compute. reflexivity.
Qed.

Lemma ex_reparser : forall L,
  fst (play std_ext L 9 reparser [] [] direct)
  = [Ok (FPtr (GVal (Some 0)), [0]); Ok (FText (Some (lit "{""a"":[1,{}]}"), []), [])]
  /\ fst (play std_ext L 9 reparser [] [] detour) = fst (play std_ext L 9 reparser [] [] direct).
Proof. intros L. split; vm_compute; reflexivity. Qed.

Lemma ex_two_maps : forall L,
  reachable std_ext two_maps
  /\ self_contained (view two_maps) [1; 2] /\ self_contained (view two_maps) [4; 5]
  /\ (forall a, In a [1; 2] -> In a [4; 5] -> False)
  /\ snd (play std_ext L 9 remover [] [1] two_maps) <> two_maps
  /\ fst (play std_ext L 9 remover [] [4] (snd (play std_ext L 9 remover [] [1] two_maps)))
     = [Ok (FOut (OFlag false true), []); Ok (FOut (OKeys [lit "b"]), [])].
Proof.
  intros L. split; [apply two_maps_reachable|]. split; [exact two_maps_first|]. split; [exact two_maps_second|].
  split; [cbn; intros a; lia|]. split; [vm_compute; discriminate|vm_compute; reflexivity].
Qed.
