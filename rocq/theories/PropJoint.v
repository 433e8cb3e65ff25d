(** * C87: programs that share objects and change others *)
From Coq Require Import Ascii String List NArith ZArith Bool Lia.
From Verif Require Import GoStr GoNum GoFloat Heap Common ParserModel JsonModel TimeModel SpecDict SpecWorld Inv World Reach
  SpecAlike ClientModel TeamModel TeamFacts SpecJoint JointFacts ExampleAlike.
Import ListNotations.

(** Programs may share objects and take turns in any order, if none changes an object that another
    can reach: each sees what it sees alone, and leaves its objects as it leaves them alone. *)
Theorem c87_unnoticed : forall X L h members sched i c t S,
  prints_no_address X -> reachable X h -> fair_team X L h members -> nth_error members i = Some (c, t, S) ->
  exists g, nth_error (fst (team X L sched (map begin members) h)) i = Some g
    /\ g_seen g = fst (play X L (count_occ Nat.eq_dec sched i) c [] t h)
    /\ forall n (d : client), fst (play X L n d [] t (snd (team X L sched (map begin members) h)))
                              = fst (play X L n d [] t (snd (play X L (count_occ Nat.eq_dec sched i) c [] t h))).
Proof. exact joint_unnoticed. Qed.

(** The teams of C78 are among these. *)
Theorem c87_covers : forall X L h members,
  prints_no_address X -> reachable X h -> good_team h members -> fair_team X L h members.
Proof. exact good_fair. Qed.

(** The first clones the shared map and changes the clone, the second puts the value of the shared
    map into a map of its own and takes it out again. *)
Definition cloner : client := script
  [QClone 20 KMap 0; QApi (AMapSet 1 (lit "n") (IScal (SInt KUInt8 1))); QMapText 20 1 (Some []); QMapText 20 0 (Some [])].
Definition borrower : client := script
  [QApi ANewMap; QApi (AMapGetValue 0 (lit "a")); QApi (AMapSetValue 1 (lit "v") (Some 2)); QMapText 20 1 (Some []);
   QApi (AMapRemoveKey 1 (lit "v")); QMapText 20 0 (Some [])].
Definition pair_up : list member := [(cloner, [1], [1; 2]); (borrower, [1], [1; 2])].

Example c87_ex : forall L,
  prints_no_address std_ext /\ reachable std_ext two_maps /\ fair_team std_ext L two_maps pair_up
  /\ ~ reader cloner /\ ~ reader borrower
  /\ map g_seen (fst (team std_ext L [1; 0; 1; 1; 0; 0; 1; 1; 0; 1] (map begin pair_up) two_maps))
     = [[Ok (FLoc (GVal 0), [1]); Ok (FOut ODone, []); Ok (FText (Some (lit "{""a"":true,""n"":1}"), []), []);
         Ok (FText (Some (lit "{""a"":true}"), []), [])];
        [Ok (FOut (OHandle 0), [1]); Ok (FOut (OValue (Some 0)), [2]); Ok (FOut ODone, []);
         Ok (FText (Some (lit "{""v"":true}"), []), []); Ok (FOut (OFlag true false), []);
         Ok (FText (Some (lit "{""a"":true}"), []), [])]].
Proof.
  intros L. split; [exact std_prints_no_address|]. split; [apply two_maps_reachable|]. split; [|split; [|split]].
  - assert (K : forall c, c = cloner \/ c = borrower -> forall a, In a [1; 2] -> leaves std_ext L two_maps c [1] a).
    { intros c Hc a Ha n x Hx.
      assert (Hx' : x = 0 \/ x = 1 \/ x = 2) by (destruct Ha as [<-|[<-|[]]]; vm_compute in Hx; intuition).
      destruct n as [|[|[|[|[|[|[|n]]]]]]]; destruct Hc as [->| ->]; destruct Hx' as [->|[->| ->]]; vm_compute; reflexivity. }
    split.
    + intros [|[|[|i]]] c t S E; inversion E; subst; (split; [exact two_maps_first|intros x [<-|[]]; cbn; auto]).
    + intros [|[|[|i]]] [|[|[|j]]] c t S c' t' S' N E E'; inversion E; inversion E'; subst; try congruence; apply K; auto.
  - intros H. specialize (H [Ok (FLoc (GVal 0), [1])] _ eq_refl). discriminate H.
  - intros H. specialize (H (repeat (Ok (FBool true, [])) 2) _ eq_refl). discriminate H.
  - vm_compute. reflexivity.
Qed.

Print Assumptions c87_unnoticed.
Print Assumptions c87_covers.
