(** * The conversion of any Go value to a string (proofs for C64) *)
From Coq Require Import Ascii String List NArith ZArith Bool Lia.
From Verif Require Import GoStr StrLemmas GoNum GoFloat Heap Common ValueModel ArrayModel MapModel JsonModel ParserModel GetterModel
  SpecDict SpecNum SpecWorld Inv World Reach MapFacts GetterFacts GetterLift SpecDoc SpecRender RenderFacts ShowFacts SpecRound SpecClone SpecErr ErrOne
  SpecWrite WriteFacts SpecConvert.
Import ListNotations.
Local Open Scope nat_scope.

Definition result_of (r : said) : res (gres str) :=
  match r with Says t => Ok (GVal t) | NoText => Ok (GErr [EUnsupported]) | Crash => Panic end.

Section C.
  Context (X : ext).

  Lemma conv_scalar h i s : denotes h i s -> proper_scalar (x_is64 X) s ->
    exists t, plain_text s t /\ conv_held X h i = Ok (GVal t).
  Proof.
    intros D P. unfold conv_held. rewrite (denotes_deref _ _ _ D). cbn [rbind].
    destruct (denotes_type X h i s D) as [-> | ->]; destruct s as [t|b|k z|k f]; eexists; (split; [|reflexivity]);
      try reflexivity; cbn [plain_text].
    all: try (destruct b; constructor).
    all: try (constructor; eapply integer_text_format, P).
    all: destruct f as [neg m e|[|]|]; try constructor; cbn in P; apply emin_range in P as [? ?]; now apply fixed_text_format.
  Qed.

  Lemma conv_held_says h o : reachable X h -> ok_iface h o ->
    (forall s, scalar_of (view h) o = Some s -> proper_scalar (x_is64 X) s) ->
    exists r, held_says X (view h) o r /\ conv_held X h o = result_of r.
  Proof.
    intros R O P. pose proof (reachable_Inv _ _ R) as I. pose proof (view_impl _ I) as V.
    destruct (scalar_of (view h) o) as [s|] eqn:S.
    - destruct (conv_scalar h o s) as (t & T & E).
      + destruct o as [|s0|t [p|]|m|[m|]|a|[a|]|v|[v|]|l|l|[l|]|[l|]|e|[e|]|tm|fn|[fn|]|[tm|]|nm [d|]]; try discriminate.
        * injection S as ->. now left.
        * right. destruct O as (s' & Hs & <-). cbn in S. apply (im_var _ _ V) in S. rewrite S in Hs. injection Hs as <-.
          eexists. split; [reflexivity|exact S].
      + now apply P.
      + exists (Says t). split; [eapply hs_scal; eauto|exact E].
    - destruct o as [|s|t [p|]|m|[m|]|a|[a|]|v|[v|]|l|l|[l|]|[l|]|e|[[|e|te e]|]|tm|fn|[fn|]|[tm|]|nm [d|]]; try discriminate;
        unfold conv_held, common_GetType; cbn [common_IsNil static_type andb].
      all: try (exists NoText; split; [apply hs_none; exact Logic.I|destruct (x_typed_nil X); reflexivity]).
      all: try (eexists (Says _); split; [|reflexivity];
                first [apply hs_err; now left|apply hs_err; right; now left|apply hs_err; right; right; now eexists|apply hs_time]).
      all: try (exists Crash; split; [apply hs_no_error|reflexivity]).
      all: try (destruct (x_typed_nil X) eqn:T; [exists NoText; split; [apply hs_none; exact T|reflexivity]
                                                |exists Crash; split; [apply hs_crash; eauto|reflexivity]]).
      + cbn [scalar_of] in S. destruct O as (s & Hs & _). apply (im_var _ _ V) in Hs. congruence.
      + destruct O as (j & Hc). apply (im_val _ _ V) in Hc as Hj. rewrite (proj2 (rd_val_iff _ _ _) Hc). cbn [rbind].
        eexists (Says _). split; [eapply hs_nested; [now left|exact Hj]|reflexivity].
      + destruct O as (j & Hc). apply (im_val _ _ V) in Hc as Hj. rewrite (proj2 (rd_val_iff _ _ _) Hc). cbn [rbind].
        eexists (Says _). split; [eapply hs_nested; [now right|exact Hj]|reflexivity].
      + change (lit "map[string]map[string][][]string") with foreign. change error_types with written_as_error.
        destruct (str_eqb_spec nm foreign) as [->|N]; [eexists (Says _); split; [apply hs_name; left; discriminate|reflexivity]|].
        destruct (existsb (str_eqb nm) written_as_error) eqn:E.
        * eexists (Says _). split; [apply hs_error; now apply named_In|reflexivity].
        * exists NoText. split; [|reflexivity]. apply hs_none. right. split; auto. rewrite <- named_In. congruence.
      + destruct (x_typed_nil X) eqn:T; [exists NoText; split; [apply hs_none; left; auto|reflexivity]|].
        change (lit "map[string]map[string][][]string") with foreign. change error_types with written_as_error.
        destruct (str_eqb_spec nm foreign) as [->|N]; [eexists (Says _); split; [apply hs_name; now right|reflexivity]|].
        destruct (existsb (str_eqb nm) written_as_error) eqn:E.
        * exists Crash. split; [|reflexivity]. apply hs_crash; auto. do 4 right. exists nm. split; auto. now apply named_In.
        * exists NoText. split; [|reflexivity]. apply hs_none. right. split; auto. rewrite <- named_In. congruence.
  Qed.

  Lemma nil_object_isnil i : nil_object i = common_IsNil i.
  Proof. now destruct i as [|s|t [p|]|m|[m|]|a|[a|]|v|[v|]|l|l|[l|]|[l|]|e|[e|]|tm|fn|[fn|]|[tm|]|nm [d|]]. Qed.

  Lemma convert h i : reachable X h -> ok_object (view h) i ->
    (forall o s, looked_at (view h) i = Some o -> scalar_of (view h) o = Some s -> proper_scalar (x_is64 X) s) ->
    exists r, says X (view h) i r /\ conv_string X h i = result_of r.
  Proof.
    intros R O P. pose proof (reachable_Inv _ _ R) as I. pose proof (view_impl _ I) as V.
    change (conv_string X h i) with
      (if common_IsNil i then Ok (GVal (lit "null"))
       else tv <-r match i with IVal v | IPVal (Some v) => rd_val h v | _ => Ok i end ;; conv_held X h tv).
    apply (ok_object_impl _ _ _ V) in O. destruct (common_IsNil i) eqn:N.
    { eexists (Says _). split; [apply sa_nil; now rewrite nil_object_isnil|reflexivity]. }
    assert (exists o, looked_at (view h) i = Some o /\ ok_iface h o
                      /\ match i with IVal v | IPVal (Some v) => rd_val h v | _ => Ok i end = Ok o) as (o & L & Oo & ->).
    { destruct i as [|s|t [p|]|m|[m|]|a|[a|]|v|[v|]|l|l|[l|]|[l|]|e|[e|]|tm|fn|[fn|]|[tm|]|nm [d|]]; try discriminate N; try (eexists; split; [reflexivity|]; split; [exact O|reflexivity]).
      all: destruct O as (j & Hc); exists j; cbn [looked_at]; apply (im_val _ _ V) in Hc as Hj; split; [exact Hj|];
        split; [exact (inv_val h I _ _ Hc)|now apply rd_val_iff]. }
    cbn [rbind]. destruct (conv_held_says h o R Oo) as (r & H & E); [intros s; now apply P|].
    exists r. split; [|exact E]. eapply sa_object; eauto.
  Qed.
End C.

(** ** Several values *)
Section L.
  Context (X : ext).

  Definition crashed (r : said) : bool := match r with Crash => true | _ => false end.
  Lemma convert_all h l : reachable X h -> Forall (ok_value_handle (view h)) l ->
    (forall v i s, In (Some v) l -> w_val (view h) v = Some i -> scalar_of (view h) i = Some s -> proper_scalar (x_is64 X) s) ->
    exists rs, Forall2 (fun o r => says X (view h) (IPVal o) r) l rs
      /\ conv_strings X h l = (if existsb crashed rs then Panic else Ok (texts_said rs, repeat EUnsupported (textless_said rs))).
  Proof.
    intros R H P. induction H as [|o l Ho Hl IH]; [exists []; split; [constructor|reflexivity]|].
    destruct IH as (rs & F & E). { intros v i s Hv. apply P. now right. }
    destruct (convert X h (IPVal o) R) as (r & Sr & Er).
    { destruct o as [v|]; [exact Ho|exact Logic.I]. }
    { intros j s Lj Sj. destruct o as [v|]; cbn [looked_at] in Lj.
      - eapply P; eauto. now left.
      - injection Lj as <-. discriminate. }
    exists (r :: rs). split; [now constructor|]. cbn [conv_strings]. rewrite Er.
    destruct r; cbn [result_of rbind existsb crashed orb]; try reflexivity; rewrite E;
      (destruct (existsb crashed rs); [reflexivity|]); cbn [rbind texts_said textless_said fst snd repeat app]; reflexivity.
  Qed.

  Lemma elements_said h m k a l i :
    reachable X h -> has (w_map (view h)) m -> i = IArr a \/ i = IPArr (Some a) ->
    SpecWorld.object_at (view h) m k = Some i -> w_arr (view h) a = Some l ->
    (forall v j s, In (Some v) l -> w_val (view h) v = Some j -> scalar_of (view h) j = Some s -> proper_scalar (x_is64 X) s) ->
    exists rs, Forall2 (fun o r => says X (view h) (IPVal o) r) l rs
      /\ (In Crash rs -> map_GetErrors X h m k = Panic)
      /\ (~ In Crash rs ->
          map_GetErrors X h m k = Ok (if textless_said rs =? 0 then GVal (map Plain (texts_said rs)) else GErr (repeat EUnsupported (textless_said rs)))).
  Proof.
    intros R Hm Ei O A P. pose proof (reachable_Inv _ _ R) as I. pose proof (view_impl _ I) as V.
    assert (nil_object i = false) as N by (destruct Ei as [->| ->]; reflexivity).
    destruct (map_via_present h I m k i Hm O N) as (v & Hv & _ & _ & Vi).
    apply (im_arr _ _ V) in A as A'. destruct A' as [A' _].
    destruct (convert_all h l R) as (rs & F & E); auto.
    { apply Forall_forall. intros [w|] Hw; [|exact Logic.I]. pose proof (inv_arr h I _ _ A') as Q.
      rewrite Forall_forall in Q. specialize (Q _ Hw). destruct Q as [j Q]. exists j. now apply (im_val _ _ V). }
    exists rs. split; [exact F|].
    assert (iface_IsNil X i = false) as Q.
    { unfold iface_IsNil, common_recognised, common_GetType. destruct Ei as [->| ->]; reflexivity. }
    assert (rd_arr h a = Ok l) as Ra by (unfold rd_arr; now rewrite A').
    assert (G : map_GetErrors X h m k = q <-r conv_strings X h l ;; Ok (match snd q with [] => GVal (map Plain (fst q)) | e => GErr e end)).
    { unfold map_GetErrors. rewrite Vi. unfold value_GetErrors, rd_val. rewrite Hv. cbn [rbind]. rewrite Q.
      destruct Ei as [->| ->]; rewrite Ra; reflexivity. }
    rewrite G, E. split.
    - intros C. assert (existsb crashed rs = true) as ->; [|reflexivity]. apply existsb_exists. exists Crash. auto.
    - intros C. assert (existsb crashed rs = false) as ->.
      { destruct (existsb crashed rs) eqn:B; auto. apply existsb_exists in B as (x & Hx & Cx). destruct x; try discriminate. contradiction. }
      cbn [rbind snd fst]. destruct (textless_said rs); reflexivity.
  Qed.

  (** ** One text *)
  Lemma plain_text_fun s t u : plain_text s t -> plain_text s u -> t = u.
  Proof. destruct s; cbn [plain_text]; intros A B; [congruence|..]; eapply shows_fun; eauto. Qed.
  Lemma foreign_no_error : ~ In foreign written_as_error.
  Proof. intros H. repeat destruct H as [H|H]; try discriminate. contradiction. Qed.
  Lemma held_says_fun w o r q : held_says X w o r -> held_says X w o q -> r = q.
  Proof.
    intros A B. destruct o as [|s|t [p|]|m|[m|]|a|[a|]|v|[v|]|l|l|[l|]|[l|]|e|[[|e|te e]|]|tm|fn|[fn|]|[tm|]|nm [d|]];
      inversion A as [i s0 t0 S T|i s0 Ei|tm0|d0 C0|n d0 Hn|i v0 j Ei Ej|i Ti|i Tn Ei|];
      inversion B as [i' s' t' S' T'|i' s' Ei'|tm'|d' C'|n' d' Hn'|i' v' j' Ei' Ej'|i' Ti'|i' Tn' Ei'|]; subst; try reflexivity;
      unfold error_object, counts in *; cbn [scalar_of textless] in *; try contradiction; try discriminate;
      repeat match goal with
             | Q : _ \/ _ |- _ => destruct Q as [Q|Q]
             | Q : exists _, _ |- _ => destruct Q as [? Q]
             | Q : _ /\ _ |- _ => destruct Q
             end; try discriminate; try congruence; try contradiction.
    all: try (exfalso; now apply foreign_no_error).
    all: try (f_equal; rewrite S in S'; injection S' as <-; eapply plain_text_fun; eauto).
    all: match goal with Q : IOther foreign None = IOther _ None |- _ => injection Q as <- end; exfalso; now apply foreign_no_error.
  Qed.
  Lemma says_fun w i r q : says X w i r -> says X w i q -> r = q.
  Proof.
    intros [A|o r' A L H] [B|o' q' B L' H']; try congruence. rewrite L in L'. injection L' as <-. eapply held_says_fun; eauto.
  Qed.
End L.
