(** * The second round trip *)
From Coq Require Import Ascii String List NArith ZArith Bool Lia.
From Verif Require Import GoStr GoNum GoFloat Heap Common ValueModel ArrayModel MapModel JsonModel ParserModel
  StrLemmas SpecDict DictLemmas SpecNum NumLemmas SpecWorld Inv World Reach SpecFloat FloatFacts SpecDoc RepFacts
  SpecText SpecToken TreeParser ParseWorld ParseRefine ParseTop TextRun TokenFacts SpecParse ParseFacts PosFacts TypedFacts
  TextDec ParseMore SpecRender RenderFacts ShowFacts SpecRound RoundFacts StableFacts.
Import ListNotations.

(** ** Properties of what comes back *)
Lemma rounds_some k neg n d f : rounds_to k neg n d (Some f) ->
  ~ overflows k n d /\ exists m e, f = FFin neg m e /\ nearest k n d m e.
Proof. intros [[_ H]|(O & m & e & H & N)]; [discriminate|]. inversion H. eauto. Qed.

Lemma scalar_proper is64 neg k f n d : rounds_to k neg n d (Some f) -> proper_scalar is64 (SFlt k f).
Proof. intros R. apply rounds_some in R as (_ & m & e & -> & N & _). exact N. Qed.

Lemma narrow_proper is64 ks z k : ks = unsigned_types \/ ks = signed_types -> narrowest ks z k -> fits is64 k z.
Proof.
  intros K (I & F & _). destruct K as [-> | ->]; cbn in I;
    repeat (destruct I as [<-|I]; [destruct is64; exact F|]); destruct I.
Qed.

Lemma comes_back_proper is64 d : forall d', comes_back d d' -> proper is64 d'.
Proof.
  induction d as [|s|y|l|l IH|l IH] using doc_ind'; intros d' C; inversion C; subst; try (constructor; cbn; auto; fail).
  - constructor. cbn [proper_scalar]. eapply narrow_proper; [left; reflexivity|eassumption].
  - constructor. cbn [proper_scalar]. eapply narrow_proper; [right; reflexivity|eassumption].
  - constructor. eapply scalar_proper; eassumption.
  - constructor. eapply scalar_proper; eassumption.
  - constructor. apply Forall_map, Forall_forall. intros. constructor. exact I.
  - constructor. clear C. induction H0; constructor; inversion IH; subst; auto.
  - constructor. clear C. induction H0 as [|x y l l' [_ H]]; constructor; inversion IH; subst; auto.
Qed.

Lemma comes_back_writable d : forall d', writable d -> comes_back d d' -> writable d'.
Proof.
  induction d as [|s|y|l|l IH|l IH] using doc_ind'; intros d' W C; inversion C; subst; auto;
    try (apply wr_scal; [exact I|discriminate]).
  - apply wr_scal; [|discriminate]. match goal with H : rounds_to _ _ _ _ _ |- _ => apply rounds_some in H as (_ & ? & ? & -> & _) end. exact I.
  - apply wr_scal; [|discriminate]. match goal with H : rounds_to F64 _ _ _ _ |- _ => apply rounds_some in H as (_ & ? & ? & -> & _) end. exact I.
  - inversion W; subst. now constructor.
  - inversion W as [| | | |? S| |]; subst. constructor. apply Forall_map. eapply Forall_impl; [|exact S]. intros. now constructor.
  - inversion W as [| | | | |? W'|]; subst. constructor. clear C W. induction H0; constructor; inversion IH; inversion W'; subst; auto.
  - inversion W as [| | | | | |? W']; subst. constructor. clear C W. induction H0 as [|x y l l' [E H]]; constructor; inversion IH; inversion W'; subst; auto.
    match goal with H : safe _ /\ _ |- _ => destruct H as (S & Q & Wx) end. rewrite <- E. split; auto. split; auto.
    intros K. apply Q. inversion H; subst; auto;
      match goal with Hs : _ = snd y |- _ => rewrite <- Hs in K end; auto.
Qed.

(** ** The text is stable *)
Lemma fixed_back neg m e m' e' k z s : normal_form k m e ->
  nearest_integer (units m e * 10 ^ 6) (2 ^ 1074) z -> nearest k z (10 ^ 6) m' e' ->
  fixed_text neg m e s -> fixed_text neg m' e' s.
Proof.
  intros NF Z N (i & f & z' & -> & Nu & C & L & Z'). exists i, f, z'. repeat split; auto; try apply Nu.
  - rewrite <- (nearest_integer_fun _ _ _ _ (pow2_pos 1074 ltac:(lia)) Z Z'). eapply stable_decimal; eauto. apply NF.
  - rewrite <- (nearest_integer_fun _ _ _ _ (pow2_pos 1074 ltac:(lia)) Z Z'). eapply stable_decimal; eauto. apply NF.
Qed.

Lemma comes_back_shows is64 d : forall d' s, proper is64 d -> no_float64 d -> comes_back d d' -> shows d s -> shows d' s.
Proof.
  induction d as [|s|y|l|l IH|l IH] using doc_ind'; intros d' t P N C S; inversion C; subst.
  - exact S.
  - exact S.
  - exact S.
  - inversion S; subst. now constructor.
  - inversion S; subst. now constructor.
  - inversion S; subst. inversion P; subst. inversion N as [|? NN| | | |]; subst. destruct k; [|exfalso; eapply NN; eauto].
    match goal with H : rounds_to _ _ _ _ _ |- _ => apply rounds_some in H as (_ & m' & e' & -> & R) end.
    constructor. eapply fixed_back; eauto.
  - inversion P as [|? PP| | | |]; subst. inversion N as [|? NN| | | |]; subst. destruct k; [|exfalso; eapply NN; eauto].
    exfalso. match goal with H : rounds_to F32 _ _ _ None |- _ => destruct H as [[O _]|(_ & ? & ? & O & _)]; [|discriminate] end.
    eapply fixed_no_overflow; [|eassumption|exact O]. apply PP.
  - inversion S; subst. constructor.
  - inversion S; subst. rewrite <- (map_id (map quote l)). rewrite map_id.
    constructor. clear. induction l; cbn [map]; constructor; auto. constructor.
  - inversion P as [| | | |? P'|]; inversion N as [| | | |? N'|]; inversion S as [| | | | | | | | | | |? ts S'|]; subst. constructor.
    clear - IH P' N' S' H0. revert ts S'. induction H0; intros ts S'; inversion S'; inversion IH; inversion P'; inversion N'; subst; constructor; auto.
  - inversion P as [| | | | |? P']; inversion N as [| | | | |? N']; inversion S as [| | | | | | | | | | | |? ts S']; subst.
    assert (map fst l = map fst l') as ->.
    { clear - H0. induction H0 as [|? ? ? ? [E _]]; cbn; congruence. }
    constructor.
    clear - IH P' N' S' H0. revert ts S'. induction H0 as [|? ? ? ? [_ ?]]; intros ts S'; inversion S'; inversion IH; inversion P'; inversion N'; subst; constructor; auto.
Qed.

(** ** The document is stable *)
Lemma comes_back_again is64 d : forall d', proper is64 d -> comes_back d d' -> comes_back d' d'.
Proof.
  induction d as [|s|y|l|l IH|l IH] using doc_ind'; intros d' P C; inversion C; subst; try (constructor; auto; fail).
  - inversion P as [|? PP| | | |]; subst. cbn [proper_scalar] in PP.
    match goal with H : nearest_integer _ _ _, R : rounds_to _ _ _ _ _ |- _ => rename H into Z; rename R into R1 end.
    assert (0 <= z)%Z as Zp.
    { apply emin_range in PP as [M E]. rewrite (nearest_integer_fun _ _ _ _ (pow2_pos 1074 ltac:(lia)) Z (micro_nearest m e M E)). now apply micro_nonneg. }
    apply rounds_some in R1 as (_ & m' & e' & -> & N). pose proof (proj1 N) as NF. pose proof NF as NF'.
    apply emin_range in NF' as [M E]. pose proof (micro_nearest m' e' M E) as Z'.
    apply (cb_flt32 _ _ _ _ (micro m' e')); auto. right. split.
    + eapply fixed_no_overflow; [apply NF|exact Z'].
    + exists m', e'. split; auto. exact (reread_float z m' e' _ Zp N Z').
  - inversion P as [|? PP| | | |]; subst. cbn [proper_scalar] in PP.
    match goal with H : nearest_integer _ _ _, R : rounds_to F64 _ _ _ _, Q : rounds_to F32 _ _ _ _ |- _ => rename H into Z; rename R into R1; rename Q into R0 end.
    apply rounds_some in R1 as (_ & m' & e' & -> & N).
    destruct R0 as [[O _]|(_ & ? & ? & O & _)]; [|discriminate].
    destruct (reread_big z m' e' O N) as (t & U & O').
    assert (nearest_integer (units m' e' * 10 ^ 6) (2 ^ 1074) (t * 10 ^ 6)) as Z'.
    { assert (units m' e' * 10 ^ 6 - t * 10 ^ 6 * 2 ^ 1074 = 0)%Z as D. { rewrite U. generalize (2 ^ 1074)%Z. intros a. ring. }
      unfold nearest_integer. rewrite D. pose proof (pow2_pos 1074 ltac:(lia)) as P2. revert P2. generalize (2 ^ 1074)%Z. intros a P2. cbn. lia. }
    apply (cb_flt64 _ _ _ _ (t * 10 ^ 6)); auto.
    + left. auto.
    + right. split; [eapply fixed_no_overflow; [apply N|exact Z']|]. exists m', e'. split; auto.
      apply nearest_exact; [lia|apply N|]. rewrite U. generalize (2 ^ 1074)%Z. intros a. ring.
  - constructor. clear. induction l; cbn [map]; constructor; auto. constructor.
  - inversion P as [| | | |? P'|]; subst. constructor. clear - IH P' H0.
    induction H0; inversion IH; inversion P'; subst; constructor; auto.
  - inversion P as [| | | | |? P']; subst. constructor. clear - IH P' H0.
    induction H0 as [|? ? ? ? [_ ?]]; inversion IH; inversion P'; subst; constructor; auto.
Qed.

(** ** What comes back is determined *)
Lemma narrowest_fun ks z a b : ks = unsigned_types \/ ks = signed_types -> narrowest ks z a -> narrowest ks z b -> a = b.
Proof.
  intros K (Ia & Fa & Ma) (Ib & Fb & Mb). specialize (Ma b Ib Fb). specialize (Mb a Ia Fa).
  destruct K as [-> | ->]; cbn in Ia, Ib;
    repeat (destruct Ia as [<-|Ia]; [repeat (destruct Ib as [<-|Ib]; [auto; cbn in Ma, Mb; lia|]); destruct Ib|]); destruct Ia.
Qed.

Lemma comes_back_fun d : forall a b, comes_back d a -> comes_back d b -> a = b.
Proof.
  pose proof (pow2_pos 1074 ltac:(lia)) as P.
  induction d as [|s|y|l|l IH|l IH] using doc_ind'; intros a b A B.
  - inversion A; inversion B; auto.
  - inversion A; subst; inversion B; subst; auto; try lia.
    + do 2 f_equal. apply (narrowest_fun unsigned_types z); auto.
    + do 2 f_equal. apply (narrowest_fun signed_types z); auto.
    + assert (z0 = z) as -> by (eapply nearest_integer_fun; eauto).
      assert (Some f = Some f0); [|congruence]. apply (rounds_to_fun F32 neg z (10 ^ 6)); auto; lia.
    + assert (z0 = z) as -> by (eapply nearest_integer_fun; eauto).
      assert (Some f = None); [|discriminate]. apply (rounds_to_fun F32 neg z (10 ^ 6)); auto; lia.
    + assert (z0 = z) as -> by (eapply nearest_integer_fun; eauto).
      assert (Some f0 = None); [|discriminate]. apply (rounds_to_fun F32 neg z (10 ^ 6)); auto; lia.
    + assert (z0 = z) as -> by (eapply nearest_integer_fun; eauto).
      assert (Some f = Some f0); [|congruence]. apply (rounds_to_fun F64 neg z (10 ^ 6)); auto; lia.
  - inversion A; inversion B; subst. auto.
  - inversion A; inversion B; subst. auto.
  - inversion A as [| | | | | | | | |? l' H|]; inversion B as [| | | | | | | | |? l'' H'|]; subst. f_equal.
    clear - IH H H'. revert l'' H'. induction H; intros l'' H'; inversion H'; inversion IH; subst; f_equal; auto.
  - inversion A as [| | | | | | | | | |? l' H]; inversion B as [| | | | | | | | | |? l'' H']; subst. f_equal.
    clear - IH H H'. revert l'' H'. induction H as [|x y l l' [E H]]; intros l'' H'; inversion H' as [|? [k d] ? ? [E' H2]]; inversion IH; subst; f_equal; auto.
    destruct y as [k' d']. cbn [fst snd] in *. f_equal; [congruence|auto].
Qed.

(** ** Representations do not depend on nil pointers they do not use *)
Lemma rep_false_any tn w F :
  (forall i d (_ : rep_obj NoNils w F i d), rep_obj tn w F i d)
  /\ (forall o d (_ : rep_value NoNils w F o d), rep_value tn w F o d)
  /\ (forall l ds (_ : rep_elems NoNils w F l ds), rep_elems tn w F l ds)
  /\ (forall l ds (_ : rep_members NoNils w F l ds), rep_members tn w F l ds).
Proof.
  apply rep_mutind; intros; try discriminate; try (econstructor; eauto; fail).
Qed.
