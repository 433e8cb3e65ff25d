(** * What a call does to documents *)
From Coq Require Import Ascii String List NArith ZArith Bool Lia.
From Verif Require Import GoStr StrLemmas GoNum GoFloat Heap Common ValueModel ArrayModel MapModel
  SpecDict DictLemmas SpecWorld Inv World Reach MapFacts SpecDoc RepFacts SpecRender RenderFacts ParseWorld SpecParse ParseFacts
  CycleFacts ObjFacts ParseTop SpecClone CloneFacts CloneResults SpecEdit.
Import ListNotations.

Fixpoint dsize (d : doc) : nat :=
  match d with
  | DArr l => S (list_sum (map dsize l))
  | DMap l => S (list_sum (map (fun kd => dsize (snd kd)) l))
  | _ => 1
  end.

Lemma sum_in l n : In n l -> n <= list_sum l.
Proof.
  induction l as [|y l IH]; intros H; [destruct H|]. change (list_sum (y :: l)) with (y + list_sum l).
  destruct H as [->|H]; [lia|]. specialize (IH H). lia.
Qed.

Lemma size_elem l d : In d l -> dsize d < dsize (DArr l).
Proof. intros I. cbn. apply le_n_S. apply sum_in. now apply in_map. Qed.
Lemma size_member l k d : In (k, d) l -> dsize d < dsize (DMap l).
Proof. intros I. cbn. apply le_n_S. apply sum_in. change (dsize d) with ((fun kd => dsize (snd kd)) (k, d)). now apply in_map. Qed.

(** Identities denote one thing. *)
Definition one_kind (w : world) : Prop := forall l,
  (has (w_map w) l -> w_arr w l = None /\ w_val w l = None /\ w_var w l = None)
  /\ (has (w_arr w) l -> w_map w l = None /\ w_val w l = None /\ w_var w l = None)
  /\ (has (w_val w) l -> w_map w l = None /\ w_arr w l = None /\ w_var w l = None).

Lemma impl_one_kind h w : impl h w -> one_kind w.
Proof.
  intros P l.
  assert (M : forall d, w_map w l = Some d -> exists mo, nth_error h l = Some (CMap mo)).
  { intros d D. apply (im_map _ _ P) in D as (mo & E & _). eauto. }
  assert (A : forall d, w_arr w l = Some d -> nth_error h l = Some (CArr d)).
  { intros d D. now apply (im_arr _ _ P) in D as [E _]. }
  assert (V : forall d, w_val w l = Some d -> nth_error h l = Some (CVal d)).
  { intros d D. now apply (im_val _ _ P) in D. }
  assert (R : forall d, w_var w l = Some d -> nth_error h l = Some (CPtr d)).
  { intros d D. now apply (im_var _ _ P) in D. }
  destruct (w_map w l) as [dm|] eqn:E1; destruct (w_arr w l) as [da|] eqn:E2; destruct (w_val w l) as [dv|] eqn:E3; destruct (w_var w l) as [dr|] eqn:E4;
    try (destruct (M _ eq_refl) as [mo Em]); try (pose proof (A _ eq_refl)); try (pose proof (V _ eq_refl)); try (pose proof (R _ eq_refl));
    try congruence; (split; [|split]); intros [z Z]; try (rewrite Z in *); try discriminate; auto.
Qed.

Section One.
  Context (tn : nils) (w : world) (K : one_kind w).

  Lemma refers_fun F F' i i' c d d' : refers i = Some c -> refers i' = Some c ->
    rep_obj tn w F i d -> rep_obj tn w F' i' d' -> d = d'.
  Proof.
    intros R R' H H'. destruct (K c) as (Km & Ka & Kv).
    assert (S : (exists dd, w_map w c = Some dd /\ rep_obj tn w F (IMap c) d)
      \/ (exists dd, w_arr w c = Some dd /\ rep_obj tn w F (IArr c) d)
      \/ (exists s, w_var w c = Some s /\ d = DScal s)).
    { inversion H as [|? _ N| |? ? ? Fp Vp Tp| | | | | | |? ? ? ? [->| ->] Fm Wm Rm|? ? ? ? [->| ->] Fm Wm Rm]; subst; cbn in R; try discriminate.
      - destruct i as [| |? [|]| |[|]| |[|]| |[|]| | |[?|]|[?|]| |[?|]| | |[?|]|[?|]|? [?|]]; discriminate.
      - injection R as ->. right. right. eauto.
      - injection R as ->. left. eexists. split; eauto.
      - injection R as ->. left. eexists. split; eauto. eapply rep_map; eauto.
      - injection R as ->. right. left. eexists. split; eauto.
      - injection R as ->. right. left. eexists. split; eauto. eapply rep_arr; eauto. }
    assert (S' : (exists dd, w_map w c = Some dd /\ rep_obj tn w F' (IMap c) d')
      \/ (exists dd, w_arr w c = Some dd /\ rep_obj tn w F' (IArr c) d')
      \/ (exists s, w_var w c = Some s /\ d' = DScal s)).
    { inversion H' as [|? _ N| |? ? ? Fp Vp Tp| | | | | | |? ? ? ? [->| ->] Fm Wm Rm|? ? ? ? [->| ->] Fm Wm Rm]; subst; cbn in R'; try discriminate.
      - destruct i' as [| |? [|]| |[|]| |[|]| |[|]| | |[?|]|[?|]| |[?|]| | |[?|]|[?|]|? [?|]]; discriminate.
      - injection R' as ->. right. right. eauto.
      - injection R' as ->. left. eexists. split; eauto.
      - injection R' as ->. left. eexists. split; eauto. eapply rep_map; eauto.
      - injection R' as ->. right. left. eexists. split; eauto.
      - injection R' as ->. right. left. eexists. split; eauto. eapply rep_arr; eauto. }
    destruct S as [(dd & E & S)|[(dd & E & S)|(s & E & ->)]]; destruct S' as [(dd' & E' & S')|[(dd' & E' & S')|(s' & E' & ->)]];
      try (eapply rep_obj_fun; eauto; fail);
      try (destruct (Km (ex_intro _ _ E)) as (N1 & N2 & N3); congruence);
      try (destruct (Km (ex_intro _ _ E')) as (N1 & N2 & N3); congruence);
      try (destruct (Ka (ex_intro _ _ E)) as (N1 & N2 & N3); congruence);
      try (destruct (Ka (ex_intro _ _ E')) as (N1 & N2 & N3); congruence).
    rewrite E in E'. now injection E' as ->.
  Qed.

  (** What a slot of a container holds is a smaller document. *)
  Lemma slot_rep F i c d x v : refers i = Some c -> rep_obj tn w F i d -> slot w c x v ->
    exists d', rep_value tn w F (Some v) d' /\ dsize d' < dsize d.
  Proof.
    intros R H S. destruct (K c) as (Km & Ka & Kv).
    inversion H as [|? _ N| |? ? ? Fp Vp Tp| | | | | | |? m dd es Ei Fm Wm Rm|? a l ds Ei Fm Wm Rm]; subst; cbn in R; try discriminate.
    - destruct i as [| |? [|]| |[|]| |[|]| |[|]| | |[?|]|[?|]| |[?|]| | |[?|]|[?|]|? [?|]]; discriminate.
    - injection R as ->. destruct x as [k|n]; cbn in S; destruct S as (q & E & _);
        [destruct (Km (ex_intro _ _ E)) as (_ & _ & ?)|destruct (Ka (ex_intro _ _ E)) as (_ & _ & ?)]; congruence.
    - assert (m = c) as -> by (destruct Ei as [->| ->]; cbn in R; congruence).
      destruct x as [k|n]; cbn in S; destruct S as (q & E & G).
      + rewrite Wm in E. injection E as <-. pose proof (rep_members_get tn w F _ _ k Rm) as Q. rewrite G in Q.
        destruct (dict_get es k) as [d'|] eqn:Gd; [|contradiction]. exists d'. split; auto.
        eapply size_member. eapply dict_get_In; eauto.
      + destruct (Ka (ex_intro _ _ E)) as (? & _). congruence.
    - assert (a = c) as -> by (destruct Ei as [->| ->]; cbn in R; congruence).
      destruct x as [k|n]; cbn in S; destruct S as (q & E & G).
      + destruct (Km (ex_intro _ _ E)) as (? & _). congruence.
      + rewrite Wm in E. injection E as <-. apply rep_elems_F2 in Rm. clear H.
        assert (Q : exists d', nth_error ds n = Some d' /\ rep_value tn w F (Some v) d').
        { clear - Rm G. revert n G. induction Rm as [|o d l ds Q _ IH]; intros [|n] G; cbn in *; try discriminate; eauto.
          injection G as ->. eauto. }
        destruct Q as (d' & En & Q). exists d'. split; auto. apply size_elem. eapply nth_error_In; eauto.
  Qed.

  Lemma path_rep F i c d : refers i = Some c -> rep_obj tn w F i d ->
    (forall p l, object_at w c p l -> (p = [] /\ l = c) \/ exists i' d', refers i' = Some l /\ rep_obj tn w F i' d' /\ dsize d' < dsize d)
    /\ (forall p v, value_at w c p v -> exists d', rep_value tn w F (Some v) d' /\ dsize d' < dsize d).
  Proof.
    intros R H. apply at_combined.
    - auto.
    - intros p v i' l _ (d' & V & L) E R'. right. inversion V as [|? j ? Fv Ev Ro]; subst.
      rewrite E in Ev. injection Ev as <-. eauto.
    - intros p x c' v _ [[-> ->]|(i' & d' & R' & H' & L)] S.
      + eapply slot_rep; eauto.
      + destruct (slot_rep _ _ _ _ _ _ R' H' S) as (d2 & V & L2). exists d2. split; auto. lia.
  Qed.
End One.

(** ** Paths from the front *)
Section Split.
  Context (w : world).

  Definition occ (i : iface) (p : list pos) (x : nat) : Prop := exists c, refers i = Some c /\ occurs w c p x.
  Definition occv (o : option nat) (p : list pos) (x : nat) : Prop :=
    exists v, o = Some v /\ ((p = [] /\ v = x) \/ exists i, w_val w v = Some i /\ occ i p x).

  Lemma at_split c :
    (forall p l, object_at w c p l -> (p = [] /\ l = c)
       \/ exists y p' v i c', p = y :: p' /\ slot w c y v /\ w_val w v = Some i /\ refers i = Some c' /\ object_at w c' p' l)
    /\ (forall p v, value_at w c p v -> exists y p' v', p = y :: p' /\ slot w c y v'
       /\ ((p' = [] /\ v = v') \/ exists i c', w_val w v' = Some i /\ refers i = Some c' /\ value_at w c' p' v)).
  Proof.
    apply at_combined.
    - auto.
    - intros p v i l _ (y & p' & v' & -> & S & [[-> ->]|(i' & c' & V & R & Q)]) E Rf; right.
      + exists y, [], v', i, l. repeat split; auto. constructor.
      + exists y, p', v', i', c'. repeat split; auto. eapply oa_in; eauto.
    - intros p x c' v _ [[-> ->]|(y & p' & v' & i & c2 & -> & S' & V & R & Q)] S.
      + exists x, [], v. auto.
      + exists y, (p' ++ [x]), v'. repeat split; auto. right. exists i, c2. repeat split; auto. econstructor; eauto.
  Qed.

  Lemma occurs_split c p x : occurs w c p x <->
    (p = [] /\ x = c) \/ exists y p' v, p = y :: p' /\ slot w c y v /\ occv (Some v) p' x.
  Proof.
    split.
    - intros [H|H]; apply (at_split c) in H.
      + destruct H as [H|(y & p' & v & i & c' & -> & S & V & R & Q)]; [auto|]. right. exists y, p', v. repeat split; auto.
        exists v. split; auto. right. exists i. split; auto. exists c'. split; auto. now left.
      + destruct H as (y & p' & v' & -> & S & [[-> ->]|(i & c' & V & R & Q)]); right; exists y; eexists; exists v'; (split; [reflexivity|split; [exact S|]]).
        * exists v'. auto.
        * exists v'. split; auto. right. exists i. split; auto. exists c'. split; auto. now right.
    - intros [[-> ->]|(y & p' & v & -> & S & v' & E & H)]; [left; constructor|]. injection E as <-.
      assert (V : value_at w c [y] v) by (apply (va w c [] y c v); auto; constructor).
      destruct H as [[-> <-]|(i & Ev & c' & R & H)]; [now right|].
      assert (O : object_at w c [y] c') by (eapply oa_in; eauto).
      destruct (at_trans w c [y] c' O) as [A B]. destruct H as [H|H]; [left; exact (A _ _ H)|right; exact (B _ _ H)].
  Qed.
End Split.

(** ** The changed object *)
Section Target.
  Context (tn : nils) (w : world) (K : one_kind w) (x : nat) (d0 : doc).

  Lemma stands_fun d d' : stands_for tn w x d -> stands_for tn w x d' -> d = d'.
  Proof.
    intros H H'. destruct (K x) as (Km & Ka & Kv).
    assert (M : forall F m d, rep_obj tn w F (IMap m) d -> has (w_map w) m).
    { intros F m e Q. inversion Q as [|? _ N| | | | | | | | |? ? ? ? [E|E] _ W _|? ? ? ? [E|E] _ W _]; try discriminate E; subst; [discriminate N|].
      injection E as ->. eexists. eauto. }
    assert (A : forall F m d, rep_obj tn w F (IArr m) d -> has (w_arr w) m).
    { intros F m e Q. inversion Q as [|? _ N| | | | | | | | |? ? ? ? [E|E] _ W _|? ? ? ? [E|E] _ W _]; try discriminate E; subst; [discriminate N|].
      injection E as ->. eexists. eauto. }
    assert (V : forall F m d, rep_value tn w F (Some m) d -> has (w_val w) m).
    { intros F m e Q. inversion Q; subst. eexists. eauto. }
    destruct H as [d H|d H|d H|s H]; destruct H' as [d' H'|d' H'|d' H'|s' H'];
      try (apply (rep_obj_fun _ _ _ _ _ _ _ H H'));
      try (apply (proj1 (proj2 (rep_fun tn w _ _)) _ _ H _ H'));
      repeat match goal with
      | Q : rep_obj _ _ _ (IMap _) _ |- _ => apply M in Q; destruct (Km Q) as (? & ? & ?); destruct Q
      | Q : rep_obj _ _ _ (IArr _) _ |- _ => apply A in Q; destruct (Ka Q) as (? & ? & ?); destruct Q
      | Q : rep_value _ _ _ (Some _) _ |- _ => apply V in Q; destruct (Kv Q) as (? & ? & ?); destruct Q
      end; congruence.
  Qed.

  Lemma stands_refers F i d : refers i = Some x -> rep_obj tn w F i d -> stands_for tn w x d.
  Proof.
    intros R H. assert (rep_obj tn w (fun _ => True) i d) as H2 by (eapply rep_obj_frame; [|exact H]; apply keeps_on_mono; auto).
    inversion H2 as [|? _ N| |? ? ? Fp Vp Tp| | | | | | |? ? ? ? [->| ->] Fm Wm Rm|? ? ? ? [->| ->] Fm Wm Rm]; subst; cbn in R; try discriminate;
      try (injection R as ->).
    - destruct i as [| |? [|]| |[|]| |[|]| |[|]| | |[?|]|[?|]| |[?|]| | |[?|]|[?|]|? [?|]]; discriminate.
    - now apply sf_var.
    - now apply sf_map.
    - apply sf_map. eapply rep_map; eauto.
    - now apply sf_arr.
    - apply sf_arr. eapply rep_arr; eauto.
  Qed.
  Lemma stands_value F d : rep_value tn w F (Some x) d -> stands_for tn w x d.
  Proof. intros H. apply sf_val. eapply rep_value_frame; [|exact H]. apply keeps_on_mono. auto. Qed.

  Hypothesis S0 : stands_for tn w x d0.

  (** Smaller documents do not involve the changed object. *)
  Lemma smaller_avoids F :
    (forall i d (_ : rep_obj tn w F i d), dsize d < dsize d0 -> rep_obj tn w (fun l => F l /\ l <> x) i d)
    /\ (forall o d (_ : rep_value tn w F o d), dsize d < dsize d0 -> rep_value tn w (fun l => F l /\ l <> x) o d)
    /\ (forall l ds (_ : rep_elems tn w F l ds), (forall d, In d ds -> dsize d < dsize d0) -> rep_elems tn w (fun l => F l /\ l <> x) l ds)
    /\ (forall l ds (_ : rep_members tn w F l ds), (forall k d, In (k, d) ds -> dsize d < dsize d0) -> rep_members tn w (fun l => F l /\ l <> x) l ds).
  Proof.
    assert (ST : forall d, stands_for tn w x d -> dsize d < dsize d0 -> False).
    { intros d S L. rewrite (stands_fun _ _ S S0) in L. lia. }
    apply rep_mutind; intros; try (constructor; auto; fail).
    - apply rep_ptr; auto. split; auto. intros ->. apply (ST (DScal s)); auto. now apply sf_var.
    - assert (N : m <> x).
      { intros ->. apply (ST (DMap es)); auto. apply (stands_refers F i); [destruct o as [->| ->]; reflexivity|eapply rep_map; eauto]. }
      eapply rep_map; eauto. apply H. intros k d' I. apply size_member in I. lia.
    - assert (N : a <> x).
      { intros ->. apply (ST (DArr ds)); auto. apply (stands_refers F i); [destruct o as [->| ->]; reflexivity|eapply rep_arr; eauto]. }
      eapply rep_arr; eauto. apply H. intros d' I. apply size_elem in I. lia.
    - eapply rep_some; eauto. split; auto. intros ->. apply (ST d); auto. apply (stands_value F). eapply rep_some; eauto.
    - constructor; [apply H; apply H1; now left|apply H0; intros; apply H1; now right].
    - constructor; [apply H; apply (H1 k); now left|apply H0; intros k' ? ?; apply (H1 k'); now right].
  Qed.

  (** It does not occur below itself. *)
  Lemma occ_size F i d p : rep_obj tn w F i d -> occ w i p x -> (p = [] /\ refers i = Some x) \/ dsize d0 < dsize d.
  Proof.
    intros H (c & R & [O|V]); destruct (path_rep tn w K F i c d R H) as [PO PV].
    - destruct (PO _ _ O) as [[-> ->]|(i' & d' & R' & H' & L)]; [auto|]. right.
      rewrite (stands_fun _ _ S0 (stands_refers _ _ _ R' H')). exact L.
    - destruct (PV _ _ V) as (d' & H' & L). right. rewrite (stands_fun _ _ S0 (stands_value _ _ H')). exact L.
  Qed.
End Target.

(** ** Lists *)
Section Lists.
  Context (tn : nils) (w : world) (F : nat -> Prop).

  Lemma rep_members_remove l ds k : rep_members tn w F l ds -> rep_members tn w F (dict_remove l k) (dict_remove ds k).
  Proof.
    intros H. induction H as [|k' o d l ds V H IH]; cbn; [constructor|]. destruct (str_eqb k' k); auto. now constructor.
  Qed.
  Lemma rep_elems_set l ds n o d : rep_elems tn w F l ds -> rep_value tn w F o d -> rep_elems tn w F (list_set l n o) (list_set ds n d).
  Proof. intros H V. revert n. induction H as [|o' d' l ds V' H IH]; intros [|n]; cbn; constructor; auto. Qed.
  Lemma rep_elems_remove l ds n : rep_elems tn w F l ds -> rep_elems tn w F (list_remove l n) (list_remove ds n).
  Proof. intros H. revert n. induction H as [|o' d' l ds V' H IH]; intros [|n]; cbn; auto; constructor; auto. Qed.
  Lemma rep_elems_length l ds : rep_elems tn w F l ds -> length l = length ds.
  Proof. intros H. induction H; cbn; auto. Qed.
  Lemma rep_elems_valid l ds n : rep_elems tn w F l ds -> valid_index l n = valid_index ds n.
  Proof. intros H. unfold valid_index. now rewrite (rep_elems_length _ _ H). Qed.
End Lists.

Lemma stands_frame tn w w' x d : stands_for tn w x d -> keeps_on w w' (fun _ => True) (fun _ => True) -> stands_for tn w' x d.
Proof.
  intros S Kp. destruct S.
  - apply sf_map. eapply rep_obj_frame; eauto.
  - apply sf_arr. eapply rep_obj_frame; eauto.
  - apply sf_val. eapply rep_value_frame; eauto.
  - apply sf_var. apply Kp; auto.
Qed.

(** ** The effect on the changed object *)
Section Effect.
  Context (tn : nils) (w : world) (B : bounded w) (K : one_kind w) (c : api) (OK : ok_call w c).
  Context (x : nat) (T : target c = Some x) (d e : doc).
  Context (S0 : stands_for tn w x d) (ST : stored tn w x c e).
  Let w' := snd (spec_call c w).
  Let F := fun l : nat => l <> x.

  Lemma kept : keeps_on w w' F F.
  Proof. apply call_keeps; auto. intros t Ht Ft. rewrite T in Ht. injection Ht as ->. now apply Ft. Qed.

  Lemma to_all w1 : keeps_on w1 w1 F (fun _ => True).
  Proof. apply keeps_on_mono. auto. Qed.

  Lemma map_members : has (w_map w) x -> exists es m, d = DMap es /\ w_map w x = Some m /\ rep_members tn w F m es.
  Proof.
    intros M. destruct (K x) as (Km & Ka & Kv). destruct (Km M) as (N1 & N2 & N3). destruct S0 as [d1 H|d1 H|d1 H|s H].
    - inversion H as [|? _ N| | | | | | | | |? ? m es [E|E] _ W R|? ? ? ? [E|E] _ W _]; try discriminate E; subst; [discriminate N|].
      injection E as <-. exists es, m. split; [auto|]. split; [auto|].
      pose proof (proj2 (proj2 (proj2 (smaller_avoids tn w K x (DMap es) S0 (fun _ => True))))) as Q.
      eapply rep_members_frame; [|apply (Q _ _ R)].
      + apply keeps_on_mono. intros l [_ Hl]. exact Hl.
      + intros k' d' I. eapply size_member; eauto.
    - inversion H as [|? _ N| | | | | | | | |? ? m es [E|E] _ W R|? ? ? ? [E|E] _ W _]; try discriminate E; subst; [discriminate N|].
      injection E as <-. congruence.
    - inversion H; subst. congruence.
    - congruence.
  Qed.

  Lemma arr_elems : has (w_arr w) x -> exists ds l, d = DArr ds /\ w_arr w x = Some l /\ rep_elems tn w F l ds.
  Proof.
    intros M. destruct (K x) as (Km & Ka & Kv). destruct (Ka M) as (N1 & N2 & N3). destruct S0 as [d1 H|d1 H|d1 H|s H].
    - inversion H as [|? _ N| | | | | | | | |? ? m es [E|E] _ W R|? ? ? ? [E|E] _ W _]; try discriminate E; subst; [discriminate N|].
      injection E as <-. congruence.
    - inversion H as [|? _ N| | | | | | | | |? ? m es [E|E] _ W R|? ? l ds [E|E] _ W R]; try discriminate E; subst; [discriminate N|].
      injection E as <-. exists ds, l. split; [auto|]. split; [auto|].
      pose proof (proj1 (proj2 (proj2 (smaller_avoids tn w K x (DArr ds) S0 (fun _ => True))))) as Q.
      eapply rep_elems_frame; [|apply (Q _ _ R)].
      + apply keeps_on_mono. intros l' [_ Hl]. exact Hl.
      + intros d' I. eapply size_elem; eauto.
    - inversion H; subst. congruence.
    - congruence.
  Qed.

  Lemma map_goal w1 m es : w_map w1 x = Some m -> rep_members tn w1 F m es -> stands_for tn w1 x (DMap es).
  Proof.
    intros W R. apply sf_map. eapply rep_map; [left; reflexivity|exact I|exact W|].
    eapply rep_members_frame; [apply to_all|exact R].
  Qed.
  Lemma arr_goal w1 m es : w_arr w1 x = Some m -> rep_elems tn w1 F m es -> stands_for tn w1 x (DArr es).
  Proof.
    intros W R. apply sf_arr. eapply rep_arr; [left; reflexivity|exact I|exact W|].
    eapply rep_elems_frame; [apply to_all|exact R].
  Qed.

  Lemma x_old : x <> w_next w /\ x <> S (w_next w).
  Proof.
    assert (x < w_next w); [|lia]. destruct B as (Bv & Br & Bm & Ba).
    clear S0 ST. destruct c; cbn in T, OK; try discriminate T; injection T as ->;
      [destruct OK as (s0 & Q & _); exact (Br _ _ Q)|..];
      try (destruct OK as [[q Q] _]); try (destruct OK as [q Q]);
      first [exact (Bm _ _ Q)|exact (Ba _ _ Q)|exact (Bv _ _ Q)].
  Qed.

  Lemma effect : stands_for tn w' x (edited c e d).
  Proof.
    pose proof kept as Kp. destruct x_old as [N1 N2]. unfold w' in *.
    destruct c; cbn in T; try discriminate T; injection T as ->; cbn [ok_call] in OK; cbn [stored] in ST.
    - (* AVarSet *) destruct OK as (s0 & Hv & Hs). subst e. cbn [edited]. destruct d; apply sf_var; cbn; apply put_same.
    - (* AMapSetValue *) destruct OK as [M _]. destruct (map_members M) as (es & m & -> & W & R). cbn [edited].
      apply map_goal with (m := dict_set m k o); [cbn; unfold map_at; rewrite W; apply put_same|].
      apply rep_members_set; [eapply rep_members_frame; eauto|eapply rep_value_frame; eauto].
    - (* AMapSet *) destruct OK as [M _]. destruct (map_members M) as (es & m & -> & W & R). cbn [edited].
      apply map_goal with (m := dict_set m k (Some (w_next w))); [cbn; unfold map_at; rewrite W; apply put_same|].
      apply rep_members_set; [eapply rep_members_frame; eauto|].
      eapply rep_some; [unfold F; auto|cbn; apply put_same|eapply rep_obj_frame; eauto].
    - (* AMapSetScalarValue *) destruct (map_members OK) as (es & m & -> & W & R). cbn [edited]. subst e.
      apply map_goal with (m := dict_set m k (Some (S (w_next w)))); [cbn; unfold map_at; rewrite W; apply put_same|].
      apply rep_members_set; [eapply rep_members_frame; eauto|].
      eapply rep_some; [unfold F; auto|cbn; apply put_same|]. apply rep_ptr; [unfold F; auto|cbn; apply put_same|reflexivity].
    - (* AMapRemoveKey *) destruct (map_members OK) as (es & m & -> & W & R). cbn [edited].
      apply map_goal with (m := dict_remove m k).
      + cbn. unfold map_at. rewrite W. cbn [the]. destruct (dict_has m k) eqn:E; cbn; [apply put_same|].
        rewrite W. f_equal. symmetry. apply dict_remove_notin. unfold dict_has in E. destruct (dict_get m k); congruence.
      + apply rep_members_remove. eapply rep_members_frame; eauto.
    - (* AArrAppendValue *) destruct OK as [M _]. destruct (arr_elems M) as (es & m & -> & W & R). cbn [edited].
      apply arr_goal with (m := m ++ [o]); [cbn; unfold arr_at; rewrite W; apply put_same|].
      apply rep_elems_app; [eapply rep_elems_frame; eauto|apply rep_elems_one; eapply rep_value_frame; eauto].
    - (* AArrAppend *) destruct OK as [M _]. destruct (arr_elems M) as (es & m & -> & W & R). cbn [edited].
      apply arr_goal with (m := m ++ [Some (w_next w)]); [cbn; unfold arr_at; rewrite W; apply put_same|].
      apply rep_elems_app; [eapply rep_elems_frame; eauto|apply rep_elems_one].
      eapply rep_some; [unfold F; auto|cbn; apply put_same|eapply rep_obj_frame; eauto].
    - (* AArrSetValueAtIndex *) destruct OK as [M _]. destruct (arr_elems M) as (es & m & -> & W & R). cbn [edited].
      rewrite <- (rep_elems_valid _ _ _ _ _ _ R). destruct (valid_index m n) eqn:E.
      + apply arr_goal with (m := list_set m (Z.to_nat n) o); [cbn; unfold arr_at; rewrite W; cbn [the]; rewrite E; apply put_same|].
        apply rep_elems_set; [eapply rep_elems_frame; eauto|eapply rep_value_frame; eauto].
      + apply arr_goal with (m := m); [cbn; unfold arr_at; rewrite W; cbn [the]; rewrite E; exact W|]. eapply rep_elems_frame; eauto.
    - (* AArrRemoveValueAtIndex *) destruct (arr_elems OK) as (es & m & -> & W & R). cbn [edited].
      rewrite <- (rep_elems_valid _ _ _ _ _ _ R). destruct (valid_index m n) eqn:E.
      + apply arr_goal with (m := list_remove m (Z.to_nat n)); [cbn; unfold arr_at; rewrite W; cbn [the]; rewrite E; apply put_same|].
        apply rep_elems_remove. eapply rep_elems_frame; eauto.
      + apply arr_goal with (m := m); [cbn; unfold arr_at; rewrite W; cbn [the]; rewrite E; exact W|]. eapply rep_elems_frame; eauto.
    - (* AValSetObject *) cbn [edited]. assert (Q : edited (AValSetObject x i) e d = e) by (destruct d; reflexivity). 
      apply sf_val. eapply rep_some; [exact I|cbn; apply put_same|].
      eapply rep_obj_frame; [apply to_all|]. eapply rep_obj_frame; eauto.
  Qed.
End Effect.

(** ** The effect on everything else *)
Section Everywhere.
  Context (tn : nils) (w w' : world) (K : one_kind w) (K' : one_kind w') (x : nat) (d0 d1 : doc).
  Context (S0 : stands_for tn w x d0) (S1 : stands_for tn w' x d1).
  Context (Kp : keeps_on w w' (fun l => l <> x) (fun l => l <> x)).
  Context (Pm : has (w_map w) x -> has (w_map w') x) (Pa : has (w_arr w) x -> has (w_arr w') x)
    (Pv : has (w_val w) x -> has (w_val w') x)
    (Pr : forall s, w_var w x = Some s -> exists s', w_var w' x = Some s' /\ stype_of s' = stype_of s).
  Let all := fun _ : nat => True.

  Lemma var_scal s : w_var w' x = Some s -> d1 = DScal s.
  Proof. intros H. exact (stands_fun tn w' K' x _ _ S1 (sf_var _ _ _ _ H)). Qed.

  Lemma map_rep : has (w_map w') x -> rep_obj tn w' all (IMap x) d1.
  Proof.
    intros M. destruct (K' x) as (Km & Ka & Kv). destruct (Km M) as (N1 & N2 & N3). destruct S1 as [d H|d H|d H|s H]; auto; exfalso.
    - inversion H as [|? _ N| | | | | | | | |? ? m es [E|E] _ W R|? ? ? ? [E|E] _ W _]; try discriminate E; subst; [discriminate N|].
      injection E as <-. congruence.
    - inversion H; congruence.
    - congruence.
  Qed.
  Lemma arr_rep : has (w_arr w') x -> rep_obj tn w' all (IArr x) d1.
  Proof.
    intros M. destruct (K' x) as (Km & Ka & Kv). destruct (Ka M) as (N1 & N2 & N3). destruct S1 as [d H|d H|d H|s H]; auto; exfalso.
    - inversion H as [|? _ N| | | | | | | | |? ? m es [E|E] _ W R|? ? ? ? [E|E] _ W _]; try discriminate E; subst; [discriminate N|].
      injection E as <-. congruence.
    - inversion H; congruence.
    - congruence.
  Qed.
  Lemma val_rep : has (w_val w') x -> rep_value tn w' all (Some x) d1.
  Proof.
    intros M. destruct (K' x) as (Km & Ka & Kv). destruct (Kv M) as (N1 & N2 & N3). destruct S1 as [d H|d H|d H|s H]; auto; exfalso.
    - inversion H as [|? _ N| | | | | | | | |? ? m es [E|E] _ W R|? ? ? ? [E|E] _ W _]; try discriminate E; subst; [discriminate N|].
      injection E as <-. congruence.
    - inversion H as [|? _ N| | | | | | | | |? ? m es [E|E] _ W R|? ? ? ? [E|E] _ W _]; try discriminate E; subst; [discriminate N|].
      injection E as <-. congruence.
    - congruence.
  Qed.

  Lemma here_obj F i d : refers i = Some x -> rep_obj tn w F i d -> rep_obj tn w' all i d1.
  Proof.
    intros R H.
    inversion H as [|? _ N| |? ? ? Fp Vp Tp| | | | | | |? ? ? ? [->| ->] Fm Wm Rm|? ? ? ? [->| ->] Fm Wm Rm]; subst; cbn in R; try discriminate;
      try (injection R as ->).
    - destruct i as [| |? [|]| |[|]| |[|]| |[|]| | |[?|]|[?|]| |[?|]| | |[?|]|[?|]|? [?|]]; discriminate.
    - destruct (Pr _ Vp) as (s' & E & <-). rewrite (var_scal _ E). apply rep_ptr; auto. exact I.
    - apply map_rep, Pm. now exists d2.
    - assert (Q : rep_obj tn w' all (IMap x) d1) by (apply map_rep, Pm; now exists d2).
      inversion Q as [|? _ N| | | | | | | | |? ? m es' [E|E] _ W R2|? ? ? ? [E|E] _ W _]; try discriminate E; subst; [discriminate N|].
      injection E as <-. eapply rep_map; [right; reflexivity|exact I|eassumption|eassumption].
    - apply arr_rep, Pa. now exists l.
    - assert (Q : rep_obj tn w' all (IArr x) d1) by (apply arr_rep, Pa; now exists l).
      inversion Q as [|? _ N| | | | | | | | |? ? m es' [E|E] _ W R2|? ? ? ? [E|E] _ W R2]; try discriminate E; subst; [discriminate N|].
      injection E as <-. eapply rep_arr; [right; reflexivity|exact I|eassumption|eassumption].
  Qed.

  Definition good_obj (i : iface) (d : doc) : Prop := exists t, d = fill t d0 /\ rep_obj tn w' all i (fill t d1)
    /\ forall p, hole_at t p <-> occ w i p x.
  Definition good_value (o : option nat) (d : doc) : Prop := exists t, d = fill t d0 /\ rep_value tn w' all o (fill t d1)
    /\ forall p, hole_at t p <-> occv w o p x.

  Lemma hole_doc d p : ~ hole_at (TDoc d) p.
  Proof. intros H. inversion H. Qed.
  Lemma hole_hole p : hole_at THole p <-> p = [].
  Proof. split; [intros H; inversion H; reflexivity|intros ->; constructor]. Qed.

  Lemma plain_obj i d : rep_obj tn w' all i d -> refers i = None -> good_obj i d.
  Proof.
    intros H R. exists (TDoc d). split; [reflexivity|]. split; [exact H|]. intros p. split.
    - intros Q. destruct (hole_doc _ _ Q).
    - intros (c & E & _). congruence.
  Qed.

  Lemma whole_obj i d : refers i = Some x -> rep_obj tn w all i d -> good_obj i d.
  Proof.
    intros R H. assert (d = d0) as -> by (apply (stands_fun tn w K x); auto; eapply stands_refers; eauto).
    exists THole. split; [reflexivity|]. split; [eapply here_obj; eauto|]. intros p. rewrite hole_hole. split.
    - intros ->. exists x. split; auto. left. constructor.
    - intros O. destruct (occ_size tn w K x d0 S0 all i d0 p H O) as [[-> _]|L]; [auto|lia].
  Qed.

  Lemma everywhere :
    (forall i d (_ : rep_obj tn w all i d), good_obj i d)
    /\ (forall o d (_ : rep_value tn w all o d), good_value o d)
    /\ (forall l ds (_ : rep_elems tn w all l ds), exists ts, ds = map (fun t => fill t d0) ts
          /\ rep_elems tn w' all l (map (fun t => fill t d1) ts)
          /\ forall n, match nth_error l n, nth_error ts n with
                       | Some o, Some t => forall p, hole_at t p <-> occv w o p x
                       | None, None => True
                       | _, _ => False
                       end)
    /\ (forall l ds (_ : rep_members tn w all l ds), exists ts, ds = map (fun kt => (fst kt, fill (snd kt) d0)) ts
          /\ rep_members tn w' all l (map (fun kt => (fst kt, fill (snd kt) d1)) ts)
          /\ forall k, match dict_get l k, dict_get ts k with
                       | Some o, Some t => forall p, hole_at t p <-> occv w o p x
                       | None, None => True
                       | _, _ => False
                       end).
  Proof.
    destruct Kp as (_ & Em & Ea & Ev & Er).
    apply rep_mutind.
    - apply plain_obj; [constructor|reflexivity].
    - intros i E N. apply plain_obj; [now constructor|]. destruct i as [| |? [|]| |[|]| |[|]| |[|]| | |[?|]|[?|]| |[?|]| | |[?|]|[?|]|? [?|]]; try discriminate; reflexivity.
    - intros s. apply plain_obj; [constructor|reflexivity].
    - intros t p s Fp V E. destruct (Nat.eq_dec p x) as [->|N].
      + apply whole_obj; [reflexivity|now apply rep_ptr].
      + exists (TDoc (DScal s)). split; [reflexivity|]. split; [apply rep_ptr; auto; exact I|]. intros q. split.
        * intros Q. destruct (hole_doc _ _ Q).
        * intros (c & R & O). injection R as <-. apply occurs_split in O as [[_ Q]|(y & p' & v & _ & S & _)]; [congruence|].
          destruct (K p) as (Km & Ka & _). destruct y as [k|n]; destruct S as (z & Q & _);
            [destruct (Km (ex_intro _ _ Q)) as (_ & _ & ?)|destruct (Ka (ex_intro _ _ Q)) as (_ & _ & ?)]; congruence.
    - intros l. apply plain_obj; [constructor|reflexivity].
    - intros e s Es. apply plain_obj; [now constructor|reflexivity].
    - intros l. apply plain_obj; [constructor|reflexivity].
    - intros l. apply plain_obj; [constructor|reflexivity].
    - intros l. apply plain_obj; [constructor|reflexivity].
    - intros l. apply plain_obj; [constructor|reflexivity].
    - intros i m d es Ei Fm W R (ts & Et & R' & G). assert (Ri : refers i = Some m) by (destruct Ei as [->| ->]; reflexivity).
      destruct (Nat.eq_dec m x) as [->|N]; [apply whole_obj; auto; eapply rep_map; eauto|].
      exists (TMap ts). split; [cbn; now rewrite Et|]. split; [eapply rep_map; eauto|]. intros p. split.
      + intros H. inversion H as [| |? k t p' E Q]; subst. specialize (G k). rewrite E in G.
        destruct (dict_get d k) as [o|] eqn:Gd; [|contradiction]. apply G in Q. exists m. split; auto.
        apply occurs_split. right. destruct Q as (v & -> & Q). exists (PKey k), p', v. split; auto. split; [exists d; auto|]. exists v. auto.
      + intros (c & Rc & O). rewrite Ri in Rc. injection Rc as <-. apply occurs_split in O as [[_ Q]|(y & p' & v & -> & S & Q)]; [congruence|].
        destruct y as [k|n]; destruct S as (z & E & Gz).
        * rewrite W in E. injection E as <-. specialize (G k). rewrite Gz in G.
          destruct (dict_get ts k) as [t|] eqn:Gt; [|contradiction]. econstructor; eauto. now apply G.
        * destruct (K m) as (_ & Ka & _). destruct (Ka (ex_intro _ _ E)) as (? & _). congruence.
    - intros i m d es Ei Fm W R (ts & Et & R' & G). assert (Ri : refers i = Some m) by (destruct Ei as [->| ->]; reflexivity).
      destruct (Nat.eq_dec m x) as [->|N]; [apply whole_obj; auto; eapply rep_arr; eauto|].
      exists (TArr ts). split; [cbn; now rewrite Et|]. split; [eapply rep_arr; eauto|]. intros p. split.
      + intros H. inversion H as [|? n t p' E Q|]; subst. specialize (G n). rewrite E in G.
        destruct (nth_error d n) as [o|] eqn:Gd; [|contradiction]. apply G in Q. exists m. split; auto.
        apply occurs_split. right. destruct Q as (v & -> & Q). exists (PIndex n), p', v. split; auto. split; [exists d; auto|]. exists v. auto.
      + intros (c & Rc & O). rewrite Ri in Rc. injection Rc as <-. apply occurs_split in O as [[_ Q]|(y & p' & v & -> & S & Q)]; [congruence|].
        destruct y as [k|n]; destruct S as (z & E & Gz).
        * destruct (K m) as (Km & _). destruct (Km (ex_intro _ _ E)) as (? & _). congruence.
        * rewrite W in E. injection E as <-. specialize (G n). rewrite Gz in G.
          destruct (nth_error ts n) as [t|] eqn:Gt; [|contradiction]. econstructor; eauto. now apply G.
    - intros NV. exists (TDoc DNull). split; [reflexivity|]. split; [now constructor|]. intros p. split.
      + intros Q. destruct (hole_doc _ _ Q).
      + intros (v & E & _). discriminate.
    - intros v i d Fv W H (t & Et & R' & G). destruct (Nat.eq_dec v x) as [->|N].
      + assert (rep_value tn w all (Some x) d) as Hv by (eapply rep_some; eauto).
        assert (d = d0) as E by (apply (stands_fun tn w K x); auto; eapply stands_value; eauto).
        rewrite E in *. exists THole. split; [reflexivity|]. split; [apply val_rep, Pv; now exists i|]. intros p. rewrite hole_hole. split.
        * intros ->. exists x. auto.
        * intros (v & Ev' & [[-> _]|(j & Wj & O)]); [auto|]. injection Ev' as <-. rewrite W in Wj. injection Wj as <-.
          destruct (occ_size tn w K x d0 S0 all i d0 p H O) as [[-> _]|L]; [auto|lia].
      + exists t. split; auto. split; [eapply rep_some; eauto; exact I|]. intros p. rewrite G. split.
        * intros O. exists v. split; auto. right. eauto.
        * intros (v' & E & [[_ Q]|(j & Wj & O)]); injection E as <-; [congruence|]. rewrite W in Wj. now injection Wj as <-.
    - exists []. split; [reflexivity|]. split; [constructor|]. intros [|n]; exact I.
    - intros o d l ds _ (t & Et & Rt & Gt) _ (ts & Ets & Rts & Gts). exists (t :: ts). split; [cbn; now rewrite <- Et, Ets|].
      split; [cbn; now constructor|]. intros [|n]; cbn; auto. apply Gts.
    - exists []. split; [reflexivity|]. split; [constructor|]. intros n. exact I.
    - intros k o d l ds _ (t & Et & Rt & Gt) _ (ts & Ets & Rts & Gts). exists ((k, t) :: ts). split; [cbn; now rewrite <- Et, Ets|].
      split; [cbn; now constructor|]. intros k'. cbn. destruct (str_eqb k k'); auto. apply Gts.
  Qed.
End Everywhere.

Lemma call_kinds w c x : ok_call w c ->
  let w' := snd (spec_call c w) in bounded w ->
  (has (w_map w) x -> has (w_map w') x) /\ (has (w_arr w) x -> has (w_arr w') x) /\ (has (w_val w) x -> has (w_val w') x)
  /\ (forall s, w_var w x = Some s -> exists s', w_var w' x = Some s' /\ stype_of s' = stype_of s).
Proof.
  intros K w' (Bv & Br & Bm & Ba).
  assert (P : forall A (f : nat -> option A) n v, has f x -> has (put f n v) x).
  { intros A f n v [y Y]. unfold has, put. destruct (Nat.eqb x n); eauto. }
  assert (Q : forall s0 s, w_var w x = Some s -> exists s', put (w_var w) (w_next w) s0 x = Some s' /\ stype_of s' = stype_of s).
  { intros s0 s E. exists s. split; auto. rewrite put_other; auto. apply Br in E. lia. }
  unfold w'. destruct c; cbn; repeat match goal with |- context [if ?b then _ else _] => destruct b end; cbn;
    (split; [|split; [|split]]); intros; auto; try (eexists; split; [eassumption|reflexivity]; fail).
  cbn in K. destruct K as (sa & E & E'). destruct (Nat.eq_dec x p) as [->|N].
  - exists s. rewrite put_same. split; congruence.
  - eexists. rewrite put_other by auto. eauto.
Qed.

Section Heap.
  Context (X : ext).

  Lemma edit_effect h tn c x d e o h' :
    reachable X h -> ok_call (view h) c -> target c = Some x ->
    stands_for tn (view h) x d -> stored tn (view h) x c e -> run_call c h = Ok (o, h') ->
    stands_for tn (view h') x (edited c e d).
  Proof.
    intros R OK T S0 ST E. pose proof (live_view _ _ R) as L. destruct (run_one X h (view h) c L OK) as (h1 & E1 & L1).
    rewrite E in E1. injection E1 as _ <-. apply (stands_frame tn (snd (spec_call c (view h)))).
    - apply effect; auto; [apply (live_bounded _ _ _ L)|]. apply (impl_one_kind h), view_impl, (reachable_Inv _ _ R).
    - apply keeps_impl; [apply L1|]. apply view_impl, (reachable_Inv _ _ (proj1 L1)).
  Qed.

  Lemma edit_keeps h c x o h' : reachable X h -> ok_call (view h) c -> target c = Some x -> run_call c h = Ok (o, h') ->
    keeps_on (view h) (view h') (fun l => l <> x) (fun l => l <> x).
  Proof.
    intros R OK T E. pose proof (live_view _ _ R) as L. destruct (run_one X h (view h) c L OK) as (h1 & E1 & L1).
    rewrite E in E1. injection E1 as _ <-. eapply keeps_trans.
    - apply (call_keeps _ c); [apply (live_bounded _ _ _ L)|exact OK|]. intros t Et N. rewrite T in Et. injection Et as ->. now apply N.
    - apply keeps_impl; [apply L1|]. apply view_impl, (reachable_Inv _ _ (proj1 L1)).
  Qed.

  Lemma edit_frame h tn c x o h' i d :
    reachable X h -> ok_call (view h) c -> target c = Some x -> run_call c h = Ok (o, h') ->
    rep_obj tn (view h) (fun l => l <> x) i d -> rep_obj tn (view h') (fun l => l <> x) i d.
  Proof. intros R OK T E. apply rep_obj_frame. eapply edit_keeps; eauto. Qed.

  Lemma read_keeps h c o h' : reachable X h -> ok_call (view h) c -> target c = None -> run_call c h = Ok (o, h') ->
    keeps_on (view h) (view h') (fun _ => True) (fun _ => True).
  Proof.
    intros R OK T E. pose proof (live_view _ _ R) as L. destruct (run_one X h (view h) c L OK) as (h1 & E1 & L1).
    rewrite E in E1. injection E1 as _ <-. eapply keeps_trans.
    - apply (call_keeps _ c); [apply (live_bounded _ _ _ L)|exact OK|]. intros t Et. congruence.
    - apply keeps_impl; [apply L1|]. apply view_impl, (reachable_Inv _ _ (proj1 L1)).
  Qed.
  Lemma read_frame h tn c o h' i d : reachable X h -> ok_call (view h) c -> target c = None -> run_call c h = Ok (o, h') ->
    rep_obj tn (view h) (fun _ => True) i d -> rep_obj tn (view h') (fun _ => True) i d.
  Proof. intros R OK T E. apply rep_obj_frame. eapply read_keeps; eauto. Qed.

  Lemma edit_everywhere h tn c x d e o h' i y dy :
    reachable X h -> ok_call (view h) c -> target c = Some x ->
    stands_for tn (view h) x d -> stored tn (view h) x c e -> run_call c h = Ok (o, h') ->
    refers i = Some y -> rep_obj tn (view h) (fun _ => True) i dy ->
    exists t, dy = fill t d
      /\ rep_obj tn (view h') (fun _ => True) i (fill t (edited c e d))
      /\ forall p, hole_at t p <-> occurs (view h) y p x.
  Proof.
    intros R OK T S0 ST E Ry Hy. pose proof (live_view _ _ R) as L. destruct (run_one X h (view h) c L OK) as (h1 & E1 & L1).
    rewrite E in E1. injection E1 as _ <-.
    assert (I1 : impl h' (view h')) by (apply view_impl, (reachable_Inv _ _ (proj1 L1))).
    destruct (call_kinds (view h) c x OK (live_bounded _ _ _ L)) as (Pm & Pa & Pv & Pr).
    destruct (impl_eq _ _ _ (proj2 L1) I1) as (_ & Em & Ea & Ev & Er).
    assert (Pm' : has (w_map (view h)) x -> has (w_map (view h')) x) by (unfold has in *; rewrite <- Em; exact Pm).
    assert (Pa' : has (w_arr (view h)) x -> has (w_arr (view h')) x) by (unfold has in *; rewrite <- Ea; exact Pa).
    assert (Pv' : has (w_val (view h)) x -> has (w_val (view h')) x) by (unfold has in *; rewrite <- Ev; exact Pv).
    assert (Pr' : forall s, w_var (view h) x = Some s -> exists s', w_var (view h') x = Some s' /\ stype_of s' = stype_of s)
      by (intros s Hs; rewrite <- Er; auto).
    destruct (proj1 (everywhere tn (view h) (view h') (impl_one_kind h _ (view_impl _ (reachable_Inv _ _ R))) (impl_one_kind h' _ I1) x d (edited c e d)
      S0 (edit_effect _ _ _ _ _ _ _ _ R OK T S0 ST E) (edit_keeps _ _ _ _ _ R OK T E) Pm' Pa' Pv' Pr') i dy Hy) as (t & Et & Rt & G).
    exists t. split; [exact Et|]. split; [exact Rt|]. intros p. rewrite G. unfold occ. rewrite Ry. split; [intros (c0 & Q & O); injection Q as <-; exact O|eauto].
  Qed.
End Heap.
