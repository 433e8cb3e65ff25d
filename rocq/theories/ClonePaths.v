(** * What Clone builds has no sharing *)
From Coq Require Import Ascii String List NArith ZArith Bool Lia.
From Verif Require Import GoStr StrLemmas GoNum GoFloat Heap Common ValueModel ArrayModel MapModel JsonModel
  SpecDict DictLemmas SpecWorld Inv World Reach MapFacts ObjFacts SpecDoc RepFacts ParseWorld RenderFacts CycleFacts SpecClone CloneFacts.
Import ListNotations.

Section Paths.
  Context (X : ext) (h : heap) (w : world) (L : live X h w).

  (** Paths by their first step. *)
  Lemma at_split c :
    (forall p l, object_at w c p l -> (p = [] /\ l = c) \/
       exists x p' v i c', p = x :: p' /\ slot w c x v /\ w_val w v = Some i /\ refers i = Some c' /\ object_at w c' p' l)
    /\ (forall p v, value_at w c p v -> exists x p' u, p = x :: p' /\ slot w c x u /\
          ((p' = [] /\ v = u) \/ exists i c', w_val w u = Some i /\ refers i = Some c' /\ value_at w c' p' v)).
  Proof.
    apply at_combined.
    - auto.
    - intros p v i l _ (x & p' & u & -> & S & [[-> ->]|(j & c' & Hj & Rj & V)]) E R; right.
      + exists x, [], u, i, l. split; auto. split; auto. split; auto. split; auto. constructor.
      + exists x, p', u, j, c'. split; auto. split; auto. split; auto. split; auto. eapply oa_in; eauto.
    - intros p x c' v _ [[-> ->]|(y & p' & u & j & c2 & -> & S & Hj & Rj & O)] Sl.
      + exists x, [], v. auto.
      + exists y, (p' ++ [x]), u. split; auto. split; auto. right. exists j, c2. split; auto. split; auto. econstructor; eauto.
  Qed.

  Lemma slot_fun c x v u : slot w c x v -> slot w c x u -> v = u.
  Proof. destruct x; cbn; intros (d & D & A) (d' & D' & A'); congruence. Qed.

  (** Everything found from [c] is in the interval, and found once. *)
  Definition good (lo hi c : nat) : Prop :=
    (forall p l, object_at w c p l -> lo <= l < hi) /\ (forall p v, value_at w c p v -> lo <= v < hi) /\ no_sharing w c.
  Definition gval (lo hi v : nat) : Prop :=
    lo <= v < hi /\ exists a b i, lo <= a /\ b <= hi /\ ~ a <= v < b /\ w_val w v = Some i /\ forall c, refers i = Some c -> good a b c.
  Definition gslots (lo hi : nat) (S : pos -> nat -> Prop) : Prop :=
    exists A B : pos -> nat, (forall x v, S x v -> lo <= A x /\ B x <= hi /\ gval (A x) (B x) v)
      /\ forall x y v u, S x v -> S y u -> x <> y -> B x <= A y \/ B y <= A x.

  Lemma good_container lo hi c : lo <= c < hi -> gslots (S c) hi (slot w c) -> good lo hi c.
  Proof.
    intros Lc (A & B & G & D).
    assert (InV : forall x v i c', slot w c x v -> w_val w v = Some i -> refers i = Some c' ->
      exists a b, A x <= a /\ b <= B x /\ ~ a <= v < b /\ good a b c').
    { intros x v i c' S V R. destruct (G x v S) as (G1 & G2 & G3 & a & b & j & Q1 & Q2 & Q3 & Q4 & Q5).
      rewrite V in Q4. inversion Q4; subst. exists a, b. auto. }
    assert (IV : forall x p u, value_at w c (x :: p) u -> A x <= u < B x).
    { intros x p u H. apply at_split in H as (y & p' & u' & E & S & H). inversion E; subst.
      destruct (G _ _ S) as (G1 & G2 & G3 & _).
      destruct H as [[-> ->]|(i & c' & V & R & H)]; auto.
      destruct (InV _ _ _ _ S V R) as (a & b & Q1 & Q2 & _ & _ & Q3 & _). apply Q3 in H. lia. }
    assert (IO : forall x p u, object_at w c (x :: p) u -> A x <= u < B x).
    { intros x p u H. apply at_split in H as [[? _]|(y & p' & u' & i & c' & E & S & V & R & H)]; [discriminate|]. inversion E; subst.
      destruct (InV _ _ _ _ S V R) as (a & b & Q1 & Q2 & _ & Q3 & _). apply Q3 in H. lia. }
    assert (SV : forall x p u, value_at w c (x :: p) u -> exists v, slot w c x v).
    { intros x p u H. apply at_split in H as (y & p' & u' & E & S & H). inversion E; subst. eauto. }
    assert (SO : forall x p u, object_at w c (x :: p) u -> exists v, slot w c x v).
    { intros x p u H. apply at_split in H as [[? _]|(y & p' & u' & i & c' & E & S & V & R & H)]; [discriminate|]. inversion E; subst. eauto. }
    assert (PV : forall p u, value_at w c p u -> p <> []).
    { intros p u H ->. apply at_split in H as (y & p' & u' & E & _). discriminate. }
    assert (Bd : forall x v, slot w c x v -> S c <= A x /\ B x <= hi).
    { intros x v S. destruct (G x v S) as (G1 & G2 & _). auto. }
    assert (PD : forall x y : pos, {x = y} + {x <> y}).
    { intros x y. decide equality; [apply (list_eq_dec Ascii.ascii_dec)|apply Nat.eq_dec]. }
    split; [|split; [|split]].
    - intros [|x p] l H.
      + apply at_split in H as [[_ ->]|(y & p' & u' & i & c' & E & _)]; [lia|discriminate].
      + destruct (SO _ _ _ H) as (v & S). apply IO in H. apply Bd in S. lia.
    - intros [|x p] u H; [now apply PV in H|]. destruct (SV _ _ _ H) as (v & S). apply IV in H. apply Bd in S. lia.
    - intros [|x p] [|y q] u H1 H2; try (now apply PV in H1); try (now apply PV in H2).
      assert (x = y) as <-.
      { destruct (PD x y) as [|Ne]; auto. exfalso.
        destruct (SV _ _ _ H1) as (v1 & S1), (SV _ _ _ H2) as (v2 & S2). destruct (D _ _ _ _ S1 S2 Ne); apply IV in H1, H2; lia. }
      f_equal. apply at_split in H1 as (x1 & p1 & u1 & E1 & S1 & H1). apply at_split in H2 as (x2 & p2 & u2 & E2 & S2 & H2).
      injection E1 as <- <-. injection E2 as <- <-. assert (u2 = u1) as -> by (eapply slot_fun; eauto).
      destruct H1 as [[-> ->]|(i1 & c1 & V1 & R1 & H1)], H2 as [[-> E]|(i2 & c2 & V2 & R2 & H2)]; auto.
      + destruct (InV _ _ _ _ S1 V2 R2) as (a & b & _ & _ & N & _ & Q & _). now apply Q in H2.
      + subst. destruct (InV _ _ _ _ S1 V1 R1) as (a & b & _ & _ & N & _ & Q & _). now apply Q in H1.
      + rewrite V1 in V2. inversion V2; subst. rewrite R1 in R2. inversion R2; subst.
        destruct (InV _ _ _ _ S1 V1 R1) as (a & b & _ & _ & _ & _ & _ & Q & _). eauto.
    - intros [|x p] [|y q] l H1 H2; auto.
      + exfalso. apply at_split in H1 as [[_ ->]|(? & ? & ? & ? & ? & E & _)]; [|discriminate].
        destruct (SO _ _ _ H2) as (v & S). apply IO in H2. apply Bd in S. lia.
      + exfalso. apply at_split in H2 as [[_ ->]|(? & ? & ? & ? & ? & E & _)]; [|discriminate].
        destruct (SO _ _ _ H1) as (v & S). apply IO in H1. apply Bd in S. lia.
      + assert (x = y) as <-.
        { destruct (PD x y) as [|Ne]; auto. exfalso.
          destruct (SO _ _ _ H1) as (v1 & S1), (SO _ _ _ H2) as (v2 & S2). destruct (D _ _ _ _ S1 S2 Ne); apply IO in H1, H2; lia. }
        f_equal. apply at_split in H1 as [[? _]|(x1 & p1 & u1 & i1 & c1 & E1 & S1 & V1 & R1 & H1)]; [discriminate|].
        apply at_split in H2 as [[? _]|(x2 & p2 & u2 & i2 & c2 & E2 & S2 & V2 & R2 & H2)]; [discriminate|].
        injection E1 as <- <-. injection E2 as <- <-. assert (u2 = u1) as -> by (eapply slot_fun; eauto).
        rewrite V1 in V2. inversion V2; subst. rewrite R1 in R2. inversion R2; subst.
        destruct (InV _ _ _ _ S1 V1 R1) as (a & b & _ & _ & _ & _ & _ & _ & Q). eauto.
  Qed.

  Lemma no_slots c : w_map w c = None -> w_arr w c = None -> forall x v, ~ slot w c x v.
  Proof. intros M A [k|n] v; cbn; intros (d & D & _); congruence. Qed.

  Lemma made_good :
    (forall lo hi i k, made_obj w lo hi i k -> forall c, refers i = Some c -> good lo hi c)
    /\ (forall lo hi o k, made_value w lo hi o k -> forall v, o = Some v -> gval lo hi v)
    /\ (forall lo hi l ks, made_elems w lo hi l ks ->
          gslots lo hi (fun x v => match x with PIndex n => nth_error l n = Some (Some v) | _ => False end))
    /\ (forall lo hi d ks, made_members w lo hi d ks ->
          gslots lo hi (fun x v => match x with PKey k => dict_get d k = Some (Some v) | _ => False end)).
  Proof.
    apply made_mutind.
    - unfold leaf. intros. congruence.
    - intros lo hi p s B V c [= <-]. apply good_container; auto.
      exists (fun _ => 0), (fun _ => 0).
      assert (N : forall x v, ~ slot w p x v).
      { apply no_slots.
        - destruct (w_map w p) eqn:E; auto. apply (im_map _ _ (proj2 L)) in E as (mo & E & _). apply (im_var _ _ (proj2 L)) in V. congruence.
        - destruct (w_arr w p) eqn:E; auto. apply (im_arr _ _ (proj2 L)) in E as (E & _). apply (im_var _ _ (proj2 L)) in V. congruence. }
      split; [intros x v S|intros x y v u S]; now apply N in S.
    - intros lo hi m d es B V _ (A & A' & G & D) c [= <-]. apply good_container; auto. exists A, A'.
      assert (Eq : forall x v, slot w m x v -> match x with PKey k => dict_get d k = Some (Some v) | PIndex _ => False end).
      { intros [k|n] v; cbn; intros (d' & D' & H); [congruence|].
        apply (im_map _ _ (proj2 L)) in V as (mo & V & _). apply (im_arr _ _ (proj2 L)) in D' as (D' & _). congruence. }
      split; [intros x v S; apply G, Eq, S|intros x y v u S1 S2; eapply D; eapply Eq; eauto].
    - intros lo hi a l ks B V _ (A & A' & G & D) c [= <-]. apply good_container; auto. exists A, A'.
      assert (Eq : forall x v, slot w a x v -> match x with PIndex n => nth_error l n = Some (Some v) | PKey _ => False end).
      { intros [k|n] v; cbn; intros (d' & D' & H); [|congruence].
        apply (im_map _ _ (proj2 L)) in D' as (mo & D' & _). apply (im_arr _ _ (proj2 L)) in V as (V & _). congruence. }
      split; [intros x v S; apply G, Eq, S|intros x y v u S1 S2; eapply D; eapply Eq; eauto].
    - intros lo hi a b v i k B V _ G La Lb N u [= <-]. split; auto. exists a, b, i. auto 10.
    - intros lo hi. exists (fun _ => 0), (fun _ => 0). split.
      + intros [k|n] v H; [contradiction|destruct n; discriminate].
      + intros [k|n] y v u H; [contradiction|destruct n; discriminate].
    - intros lo mid hi o k l ks _ Go B _ (A & A' & G & D).
      exists (fun x => match x with PIndex (S n) => A (PIndex n) | _ => lo end),
             (fun x => match x with PIndex (S n) => A' (PIndex n) | _ => mid end). split.
      + intros [k0|[|n]] v H; [contradiction| |]; cbn in H.
        * inversion H; subst. split; [lia|]. split; [lia|]. now apply Go.
        * destruct (G (PIndex n) v H) as (G1 & G2 & G3). split; [lia|]. auto.
      + intros [k0|[|n]] [k1|[|n1]] v u H1 H2 Ne; try contradiction; cbn in H1, H2.
        * left. now apply (G (PIndex n1) u).
        * right. now apply (G (PIndex n) v).
        * apply (D (PIndex n) (PIndex n1) v u); auto. congruence.
    - intros lo hi. exists (fun _ => 0), (fun _ => 0). split.
      + intros [k|n] v H; [discriminate|contradiction].
      + intros [k|n] y v u H; [discriminate|contradiction].
    - intros lo mid hi x o k l ks _ Go B _ (A & A' & G & D).
      exists (fun y => match y with PKey z => if str_eqb x z then lo else A y | _ => 0 end),
             (fun y => match y with PKey z => if str_eqb x z then mid else A' y | _ => 0 end). split.
      + intros [z|n] v H; [|contradiction]. cbn [dict_get] in H. destruct (str_eqb x z).
        * inversion H; subst. split; [lia|]. split; [lia|]. now apply Go.
        * destruct (G (PKey z) v H) as (G1 & G2 & G3). split; [lia|]. auto.
      + intros [z|n] [z1|n1] v u H1 H2 Ne; try contradiction. cbn [dict_get] in H1, H2.
        destruct (str_eqb_spec x z), (str_eqb_spec x z1); subst.
        * congruence.
        * left. now apply (G (PKey z1) u).
        * right. now apply (G (PKey z) v).
        * apply (D (PKey z) (PKey z1) v u); auto.
  Qed.

  Lemma made_no_sharing lo hi i k c : made_obj w lo hi i k -> refers i = Some c -> no_sharing w c.
  Proof. intros M R. exact (proj2 (proj2 (proj1 made_good _ _ _ _ M _ R))). Qed.
End Paths.
