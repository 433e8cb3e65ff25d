(** * Programs can see all of the content of objects: the program that reads everything *)
From Coq Require Import Ascii String List NArith ZArith Bool Lia.
From Verif Require Import GoStr StrLemmas GoNum GoFloat Heap Common ValueModel ArrayModel MapModel JsonModel ParserModel
  GetterModel NamedModel PtrModel PtrListModel TimeModel SpecDict DictLemmas SpecWorld Inv World Reach ObjFacts SpecAlike ClientModel
  AlikeFacts AlikeRead AlikeTop SpecTell TellFacts.
Import ListNotations.
Local Open Scope nat_scope.

(** ** Places *)
Definition places (T : list nat) : list nat := map (fun x => place x T) T.
Lemma place_in_app x T E : In x T -> place x (T ++ E) = place x T.
Proof.
  induction T as [|y T IH]; cbn; [easy|]. intros H. destruct (Nat.eqb_spec y x) as [|N]; auto. rewrite IH; auto. destruct H; congruence.
Qed.
Lemma place_nth x T : In x T -> nth (place x T) T 0 = x.
Proof.
  induction T as [|y T IH]; cbn; [easy|]. intros H. destruct (Nat.eqb_spec y x) as [|N]; auto. apply IH. destruct H; congruence.
Qed.
Lemma place_same x x' T : forall T', length T = length T' ->
  (forall j, j < length T -> (nth j T 0 = x <-> nth j T' 0 = x')) -> place x T = place x' T'.
Proof.
  induction T as [|y T IH]; intros [|y' T'] Ln H; try discriminate Ln; [reflexivity|]. cbn [place].
  pose proof (H 0 ltac:(cbn; lia)) as H0. cbn in H0.
  destruct (Nat.eqb_spec y x), (Nat.eqb_spec y' x'); try tauto. f_equal. apply IH; [now injection Ln|].
  intros j Hj. apply (H (S j)). cbn. lia.
Qed.
Lemma nth_places T i : i < length T -> nth i (places T) 0 = place (nth i T 0) T.
Proof.
  intros Hi. unfold places. rewrite nth_indep with (d' := (fun x => place x T) 0) by now rewrite map_length.
  apply (map_nth (fun x => place x T)).
Qed.
Lemma places_start T T' : length T = length T' ->
  (forall i j, i < length T -> j < length T -> (nth i T 0 = nth j T 0 <-> nth i T' 0 = nth j T' 0)) -> places T = places T'.
Proof.
  intros Ln H. apply nth_ext with (d := 0) (d' := 0); [unfold places; now rewrite !map_length|].
  intros i Hi. unfold places in Hi. rewrite map_length in Hi. rewrite !nth_places by lia. apply place_same; auto.
Qed.
Lemma places_app T E : places (T ++ E) = places T ++ map (fun x => place x (T ++ E)) E.
Proof. unfold places. rewrite map_app. f_equal. apply map_ext_in. intros x Hx. now apply place_in_app. Qed.
Lemma places_eq T T' i j : places T = places T' -> i < length T -> j < length T ->
  nth i T 0 = nth j T 0 -> nth i T' 0 = nth j T' 0.
Proof.
  intros E Hi Hj Q. assert (length T = length T') as Ln by (apply (f_equal (@length nat)) in E; unfold places in E; now rewrite !map_length in E).
  assert (G : forall k, k < length T -> place (nth k T 0) T = place (nth k T' 0) T').
  { intros k Hk. apply (f_equal (fun l => nth k l 0)) in E. rewrite !nth_places in E by lia. exact E. }
  rewrite <- (place_nth (nth i T' 0) T') by (apply nth_In; lia). rewrite <- (place_nth (nth j T' 0) T') by (apply nth_In; lia).
  rewrite <- !G by auto. now rewrite Q.
Qed.
Lemma places_one T T' : places T = places T' -> one_to_one (combine T T').
Proof.
  intros E. assert (length T = length T') as Ln by (apply (f_equal (@length nat)) in E; unfold places in E; now rewrite !map_length in E).
  intros a b a' b' H H'. apply (In_nth _ _ (0, 0)) in H as (i & Hi & H), H' as (j & Hj & H').
  rewrite combine_nth in H, H' by auto. rewrite combine_length, <- Ln, Nat.min_id in Hi, Hj. injection H as <- <-. injection H' as <- <-.
  split; apply places_eq; auto; lia.
Qed.

(** ** Running the program *)
Definition fine {A} (r : res A) : Prop := match r with Ok _ => True | _ => False end.
Lemma known_fine e : known e -> fine e.
Proof. destruct e; cbn; auto; discriminate. Qed.
Lemma next_end rs es : length rs = length es -> Forall known es -> next rs es es = None.
Proof. intros Ln K. pose proof (next_pre rs [] es [] Ln K) as H. now rewrite !app_nil_r in H. Qed.
Lemma reads_rename f c : reads (rename_api f c) = reads c.
Proof. now destruct c. Qed.
Section Sim.
  Context (X : ext) (L : timelib) (h h' : heap) (R : reachable X h) (R' : reachable X h').
  Let w := view h.
  Let w' := view h'.

  Lemma guard c (T : list nat) : Forall (fun i => i < length T) (api_handles c) -> forallb (fun i => Nat.ltb i (length T)) (request_handles (QApi c)) = true.
  Proof. intros H. cbn. apply forallb_forall. rewrite Forall_forall in H. intros x Hx. apply Nat.ltb_lt. auto. Qed.

  Lemma play_own cs : forall pre es T, length pre = length es -> Forall known es -> proper w cs T ->
    play X L (length cs) (next (map QApi (pre ++ cs)) (es ++ notes w cs T)) es T h = (es ++ notes w cs T, h).
  Proof.
    induction cs as [|c cs IH]; intros pre es T Ln K P; [cbn; now rewrite app_nil_r|].
    destruct P as (Rd & B & Ok1 & P). cbn [length play]. rewrite map_app.
    rewrite next_pre by (rewrite ?map_length; auto). cbn [map hd_error]. rewrite guard by auto. cbn [rename].
    rewrite (ask_read X L h _ R) by (rewrite ?reads_rename; auto). cbv zeta.
    specialize (IH (pre ++ [c]) (es ++ [note T (rd w (rename_api (at_T T) c))]) (T ++ snd (rd w (rename_api (at_T T) c)))).
    cbn [notes]. cbv zeta. rewrite <- !app_assoc in IH. cbn [app] in IH. rewrite map_app in IH. cbn [map] in IH. rewrite <- IH.
    - reflexivity.
    - rewrite !app_length. cbn. lia.
    - apply Forall_app. split; auto. constructor; auto. apply same_note_refl. now rewrite reads_rename.
    - exact P.
  Qed.

  Lemma play_other cs : forall pre es T T', length pre = length es -> Forall known es -> proper w cs T ->
    Forall2 (same_kind w w') T T' -> places T = places T' ->
    let r := play X L (length cs) (next (map QApi (pre ++ cs)) (es ++ notes w cs T)) es T' h' in
    Forall fine (fst r) /\ snd r = h' /\ length es <= length (fst r) /\
    (fst r = es ++ notes w cs T ->
       notes w cs T = notes w' cs T' /\ Forall2 (same_kind w w') (table w cs T) (table w' cs T') /\ places (table w cs T) = places (table w' cs T')).
  Proof.
    induction cs as [|c cs IH]; intros pre es T T' Ln K P F Pl.
    - cbn. rewrite app_nil_r. repeat split; auto. eapply Forall_impl; [|exact K]. apply known_fine.
    - destruct P as (Rd & B & Ok1 & P). cbn [length play]. rewrite map_app.
      rewrite next_pre by (rewrite ?map_length; auto). cbn [map hd_error].
      assert (B' : Forall (fun i => i < length T') (api_handles c)) by (rewrite <- (F2_length _ _ _ F); auto).
      rewrite guard by auto. cbn [rename].
      assert (Ok2 : ok_call w' (rename_api (at_T T') c)) by (exact (rename_ok X h h' R c T T' F Rd B Ok1)).
      fold (at_T T'). rewrite (ask_read X L h' _ R') by (rewrite ?reads_rename; auto). fold w'. cbv zeta.
      set (r' := rd w' (rename_api (at_T T') c)). set (r := rd w (rename_api (at_T T) c)).
      change (Ok (fst r', map (fun x => place x (T' ++ snd r')) (snd r'))) with (note T' r').
      cbn [notes table]. cbv zeta. fold r r'.
      destruct (same_note (note T r) (note T' r')) eqn:Sn.
      + pose proof (same_note_eq _ _ Sn) as E. pose proof E as E'. unfold note in E'.
        assert (fst r = fst r' /\ map (fun x => place x (T ++ snd r)) (snd r) = map (fun x => place x (T' ++ snd r')) (snd r')) as [Ef El] by (split; congruence).
        clear E'.
        assert (F2 : Forall2 (same_kind w w') (T ++ snd r) (T' ++ snd r')).
        { apply Forall2_app; auto. apply (reply_kinds X h h' R R'); auto; try (now rewrite reads_rename).
          destruct c; try discriminate Rd; reflexivity. }
        specialize (IH (pre ++ [c]) (es ++ [note T r]) (T ++ snd r) (T' ++ snd r')).
        rewrite <- !app_assoc in IH. cbn [app] in IH. rewrite map_app in IH. cbn [map] in IH. rewrite <- E.
        destruct IH as (I1 & I2 & I3 & I4); auto.
        * rewrite !app_length. cbn. lia.
        * apply Forall_app. split; auto. constructor; auto. apply same_note_refl. now rewrite reads_rename.
        * rewrite !places_app. congruence.
        * split; [exact I1|split; [exact I2|split; [rewrite app_length in I3; lia|]]]. intros Q. destruct I4 as (I4 & I5 & I6); auto. split; [congruence|auto].
      + assert (En : forall n, play X L n (next (map QApi pre ++ QApi c :: map QApi cs) (es ++ note T r :: notes w cs (T ++ snd r)))
                  (es ++ [note T' r']) (T' ++ snd r') h' = (es ++ [note T' r'], h')).
        { intros [|n]; [reflexivity|]. cbn [play]. rewrite next_off; auto. now rewrite map_length. }
        rewrite En. cbn [fst snd]. split; [|split; [reflexivity|split]].
        * apply Forall_app. split; [eapply Forall_impl; [|exact K]; apply known_fine|]. constructor; auto. exact Logic.I.
        * rewrite app_length. lia.
        * intros Q. apply app_inv_head in Q. apply (f_equal (hd (note T r))) in Q. cbn [hd] in Q. exfalso.
          assert (same_note (note T r) (note T r) = true) as Z by (apply same_note_refl; now rewrite reads_rename).
          rewrite Q in Sn. congruence.
  Qed.
End Sim.
