(** * A concrete team *)
From Coq Require Import Ascii String List NArith ZArith Bool Lia.
From Verif Require Import GoStr GoNum GoFloat Heap Common ValueModel ArrayModel MapModel JsonModel
  SpecDict SpecWorld Inv World Reach MapFacts ParserModel ExampleState SpecAlike ClientModel TimeModel TeamModel TeamFacts ExampleAlike.
Import ListNotations.

Definition writer : client := script [QApi (AMapSet 0 (lit "n") (IScal (SInt KUInt8 1))); QApi (AMapGetKeys 0)].
Definition listener : client := script [QApi (AMapGetKeys 0); QClone 20 KMap 0; QMapText 20 1 (Some [])].

(** A program that changes the second map of [two_maps], and two that read the first. *)
Definition three : list member := [(writer, [4], [4; 5]); (listener, [1], [1; 2]); (listener, [1], [1; 2])].

Lemma listener_reads : reader listener.
Proof.
  intros s q. unfold listener, script. destruct (length s) as [|[|[|n]]]; cbn; intros E; inversion E; subst; auto.
  destruct n; discriminate.
Qed.
Lemma three_good : good_team two_maps three.
Proof.
  split.
  - intros [|[|[|i]]] c t S E; cbn in E; try (destruct i; discriminate); inversion E; subst; split;
      try exact two_maps_first; try exact two_maps_second; intros x [<-|[]]; cbn; auto.
  - intros [|[|[|i]]] [|[|[|j]]] c t S c' t' S' N E E'; cbn in E, E'; try (destruct i; discriminate);
      try (destruct j; discriminate); try congruence; inversion E; inversion E'; subst;
      try (left; intros a; cbn; lia); right; split; exact listener_reads.
Qed.
Lemma ex_three : forall L,
  prints_no_address std_ext /\ reachable std_ext two_maps /\ good_team two_maps three
  /\ map g_seen (fst (team std_ext L [1; 0; 2; 1; 0; 2; 2; 1] (map begin three) two_maps))
     = [[Ok (FOut ODone, []); Ok (FOut (OKeys [lit "b"; lit "n"]), [])];
        [Ok (FOut (OKeys [lit "a"]), []); Ok (FLoc (GVal 0), [1]); Ok (FText (Some (lit "{""a"":true}"), []), [])];
        [Ok (FOut (OKeys [lit "a"]), []); Ok (FLoc (GVal 0), [1]); Ok (FText (Some (lit "{""a"":true}"), []), [])]].
Proof.
  intros L. split; [exact std_prints_no_address|]. split; [apply two_maps_reachable|]. split; [exact three_good|].
  vm_compute. reflexivity.
Qed.

Definition clash : list member := [(writer, [1], [1; 2]); (listener, [1], [1; 2])].
Lemma clash_seen L :
  map g_seen (fst (team std_ext L [0; 1] (map begin clash) two_maps)) <>
  [fst (play std_ext L 1 writer [] [1] two_maps); fst (play std_ext L 1 listener [] [1] two_maps)].
Proof. vm_compute. intros E. discriminate E. Qed.

Lemma team_unnoticed' X L h members sched i c t S : prints_no_address X -> reachable X h -> good_team h members ->
  nth_error members i = Some (c, t, S) ->
  exists g, nth_error (fst (team X L sched (map begin members) h)) i = Some g
    /\ g_seen g = fst (play X L (count_occ Nat.eq_dec sched i) c [] t h).
Proof. intros NA R [A B] E. eapply team_unnoticed; eauto. Qed.

Lemma sharing_refuted : ~ (forall X L h members sched i c t S, prints_no_address X -> reachable X h ->
  (forall i c t S, nth_error members i = Some (c, t, S) -> self_contained (view h) S /\ incl t S) ->
  nth_error members i = Some (c, t, S) ->
  exists g, nth_error (fst (team X L sched (map begin members) h)) i = Some g
    /\ g_seen g = fst (play X L (count_occ Nat.eq_dec sched i) c [] t h)).
Proof.
  intros H.
  destruct (H std_ext no_time two_maps clash [0; 1] 1 listener [1] [1; 2]) as (g & E & Q);
    [exact std_prints_no_address|apply two_maps_reachable| |reflexivity|].
  - intros [|[|i]] c t S E; cbn in E; try (destruct i; discriminate); inversion E; subst; split;
      try exact two_maps_first; intros x [<-|[]]; cbn; auto.
  - vm_compute in E. inversion E; subst g. vm_compute in Q. discriminate Q.
Qed.
