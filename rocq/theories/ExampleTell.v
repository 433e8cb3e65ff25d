(** * Concrete states for the theorem that programs see all of the content *)
From Coq Require Import Ascii String List NArith ZArith Bool Lia.
From Verif Require Import GoStr GoNum GoFloat Heap Common ValueModel ArrayModel MapModel JsonModel
  SpecDict SpecWorld Inv World Reach MapFacts ParserModel ExampleState SpecAlike ClientModel TimeModel AlikeRead AlikeTop ExampleAlike
  SpecTell TellFacts TellTop TellAll TellEnd.
Import ListNotations.

(** The map of [detour], with two arrays instead of one that is shared. *)
Definition unshared : heap := heap_of
  [ANewArray; ANewArray; ANewMap; AMapSet 3 (lit "a") (IPArr (Some 0));
   AMapSet 3 (lit "b") (IScal (SBool true)); AMapSet 3 (lit "c") (IPArr (Some 1))].
Lemma unshared_reachable X : reachable X unshared.
Proof. apply heap_of_reachable; [vm_compute; reflexivity|]. vm_compute. eauto. Qed.

Lemma detour_unshared_handles : same_handles (view detour) (view unshared) [1] [3].
Proof.
  split.
  - constructor; [|constructor]. eapply sk_map; vm_compute; reflexivity.
  - intros [|i] [|j] Hi Hj; cbn in *; lia.
Qed.
Lemma detour_direct_handles : same_handles (view detour) (view direct) [1] [3].
Proof.
  apply (alike_handles std_ext _ _ detour_direct); auto using detour_reachable, direct_reachable, detour_alike.
  constructor; [cbn; auto|constructor].
Qed.

(** The program of the theorem: three rounds of reading. *)
Definition detour_reader : client := checker (view detour) (rounds (view detour) 3 [1]) [1].
Lemma ex_reader : forall L,
  fst (play std_ext L 40 detour_reader [] [3] direct) = fst (play std_ext L 40 detour_reader [] [1] detour)
  /\ fst (play std_ext L 40 detour_reader [] [3] unshared) <> fst (play std_ext L 40 detour_reader [] [1] detour)
  /\ snd (play std_ext L 40 detour_reader [] [3] unshared) = unshared.
Proof. intros L. repeat split; try (vm_compute; reflexivity). vm_compute. discriminate. Qed.

Lemma ex_not_alike : ~ exists p, alike p (view detour) (view unshared) /\ Forall2 (fun a b => In (a, b) p) [1] [3].
Proof.
  intros (p & A & F). destruct (ex_reader no_time) as (_ & N & _). apply N. symmetry.
  eapply play_alike; eauto using detour_reachable, unshared_reachable. exact std_prints_no_address.
Qed.

(** The text does not tell whether the arrays are shared. *)
Lemma text_refuted : ~ (forall h h' m m', reachable std_ext h -> reachable std_ext h' ->
  (exists n s, map_ToJSONString n std_ext h m (Some []) = Ok (Some s, []) /\ map_ToJSONString n std_ext h' m' (Some []) = Ok (Some s, [])) ->
  exists p, alike p (view h) (view h') /\ In (m, m') p).
Proof.
  intros H. apply ex_not_alike. destruct (H detour unshared 1 3) as (p & A & I); auto using detour_reachable, unshared_reachable.
  - exists 20, (lit "{""a"":[],""b"":true,""c"":[]}"). split; vm_compute; reflexivity.
  - exists p. split; auto.
Qed.
Lemma ex_tell : forall L,
  reachable std_ext detour /\ reachable std_ext direct /\ reachable std_ext unshared
  /\ same_handles (view detour) (view direct) [1] [3] /\ same_handles (view detour) (view unshared) [1] [3]
  /\ fst (play std_ext L 40 detour_reader [] [3] direct) = fst (play std_ext L 40 detour_reader [] [1] detour)
  /\ fst (play std_ext L 40 detour_reader [] [3] unshared) <> fst (play std_ext L 40 detour_reader [] [1] detour)
  /\ ~ (exists p, alike p (view detour) (view unshared) /\ Forall2 (fun a b => In (a, b) p) [1] [3]).
Proof.
  intros L. destruct (ex_reader L) as (E1 & E2 & _).
  repeat (split; [first [apply detour_reachable|apply direct_reachable|apply unshared_reachable|exact detour_direct_handles|exact detour_unshared_handles|exact E1|exact E2]|]).
  exact ex_not_alike.
Qed.
