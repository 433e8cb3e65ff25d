(** * Single errors in maps *)
From Coq Require Import Ascii String List NArith ZArith Bool Lia.
From Verif Require Import GoStr StrLemmas GoNum GoFloat Heap Common ValueModel ArrayModel MapModel JsonModel ParserModel
  SpecDict DictLemmas SpecNum SpecWorld Inv World Reach MapFacts GetterFacts GetterLift SpecDoc RepFacts ParseFacts ParseTop ParseWorld SpecText SpecToken SpecParse
  SpecRender SpecRound RenderFacts ShowFacts RoundFacts SerialFacts ObjFacts SpecClone SpecHistory CloneFacts CloneTop CloneResults SpecEdit EditFacts ErrFacts SpecErr.
Import ListNotations.
Local Open Scope nat_scope.

Section S.
  Context (X : ext).

  Lemma error_rep tn w F i s : error_object i s -> rep_obj tn w F i (DErr s).
  Proof. intros [->|[->|[n ->]]]; constructor; eauto. Qed.

  Lemma error_ok w i s : error_object i s -> ok_object w i.
  Proof. intros [->|[->|[n ->]]]; exact I. Qed.

  Lemma doc_text_set h F m es k i d o h1 b :
    reachable X h -> escape_ok X -> rep_obj (x_typed_nil X) (view h) F (IMap m) (DMap es) ->
    proper (x_is64 X) (DMap es) -> proper (x_is64 X) d -> ok_object (view h) i ->
    rep_obj (x_typed_nil X) (view h) (fun l => l <> m) i d ->
    run_call (AMapSet m k i) h = Ok (o, h1) ->
    exists n s, shows (DMap (dict_set es k d)) s
      /\ forall fuel, n <= fuel -> map_ToJSONString fuel X h1 m (Some b) = Ok (Some (b ++ s), []).
  Proof.
    intros R EX Rep P Pd OI Ri E.
    destruct (set_doc X h _ F m es k i d o h1 R Rep OI Ri E) as (R1 & Hm & Rep1 & _).
    apply (map_text X h1 _ m _ b R1 EX Rep1). inversion P as [| | | | |? Pf]; subst. constructor. apply Forall_set; auto.
  Qed.

  Lemma error_text h F m es k i s o h1 b :
    reachable X h -> escape_ok X -> rep_obj (x_typed_nil X) (view h) F (IMap m) (DMap es) ->
    proper (x_is64 X) (DMap es) -> error_object i s -> run_call (AMapSet m k i) h = Ok (o, h1) ->
    exists n t, shows (DMap (dict_set es k (DErr s))) t
      /\ forall fuel, n <= fuel -> map_ToJSONString fuel X h1 m (Some b) = Ok (Some (b ++ t), []).
  Proof.
    intros R EX Rep P Ei E. eapply doc_text_set; eauto using error_ok, error_rep. constructor.
  Qed.

  Lemma error_round h F m es k i s o h1 b h2 :
    reachable X h -> escape_ok X -> rep_obj (x_typed_nil X) (view h) F (IMap m) (DMap es) ->
    proper (x_is64 X) (DMap es) -> writable (DMap es) -> safe k -> safe s -> error_object i s ->
    run_call (AMapSet m k i) h = Ok (o, h1) -> reachable X h2 ->
    exists n t m2 h3,
      (forall fuel, n <= fuel -> map_ToJSONString fuel X h1 m (Some b) = Ok (Some (b ++ t), []))
      /\ shows (DMap (dict_set es k (DErr s))) t
      /\ Parse X t h2 = Ok (GVal (Some m2), h3)
      /\ scalar_at (view h3) m2 k = Some (SStr s)
      /\ map_GetStringValue X h3 m2 k = Ok (GVal s).
  Proof.
    intros R EX Rep P W Sk Ss Ei E R2.
    destruct (set_doc X h _ F m es k i (DErr s) o h1 R Rep (error_ok _ _ _ Ei) (error_rep _ _ _ _ _ Ei) E) as (R1 & Hm & Rep1 & _).
    destruct (round_trip X h1 _ m _ b h2 R1 EX Rep1) as (n & t & d' & J & S & C & Q); auto.
    - inversion P as [| | | | |? Pf]; subst. constructor. apply Forall_set; auto. cbn. constructor.
    - inversion W as [| | | | | |? Wf]; subst. constructor. apply Forall_set; auto. cbn. split; [auto|]. split; [intros []|]. now constructor.
    - destruct Q as (h3 & m2 & Ep & R3 & U3 & Rep3 & _). exists n, t, m2, h3. split; [exact J|]. split; [exact S|]. split; [exact Ep|].
      inversion C as [| | | | | | | | | |? es' C']; subst.
      destruct (back_get _ _ k (DErr s) C') as (d' & G & Cb); [now rewrite dict_get_set, str_eqb_refl|].
      inversion Cb; subst.
      inversion Rep3 as [|? _ N| | | | | | | | |? ? d ? [Q|Q] _ Wm Rm|? ? ? ? [Q|Q] _ Wm _]; try discriminate Q; subst.
      injection Q as <-. pose proof (rep_members_get _ _ _ _ _ k Rm) as M. rewrite G in M.
      destruct (dict_get d k) as [x|] eqn:Gd; [|contradiction]. inversion M as [|v j ? Fv Wv Ro]; subst.
      assert (O : SpecWorld.object_at (view h3) m2 k = Some j) by (unfold SpecWorld.object_at, map_at; rewrite Wm; cbn [the]; now rewrite Gd).
      assert (Sc : scalar_at (view h3) m2 k = Some (SStr s)).
      { unfold scalar_at. rewrite O. inversion Ro; subst; auto. }
      split; [exact Sc|].
      assert (Hm3 : has (w_map (view h3)) m2) by (exists d; exact Wm).
      destruct (GetterLift.present X h3 m2 k _ R3 Hm3 Sc) as (v' & i' & Hv & D & _ & _ & Vi).
      unfold map_GetStringValue. rewrite Vi. now rewrite (get_stringvalue X h3 v' i' _ Hv D s) by auto.
  Qed.

  (** The clone holds a pointer to an error with the message fmt.Errorf makes of it. *)
  Lemma error_clone h F m es k i s o h1 n c h2 :
    reachable X h -> rep_obj (x_typed_nil X) (view h) F (IMap m) (DMap es) -> error_object i s ->
    run_call (AMapSet m k i) h = Ok (o, h1) -> clone n X KMap m h1 = Ok (GVal c, h2) ->
    exists es2, rep_obj (x_typed_nil X) (view h2) (made_in h1 h2) (IMap c) (DMap es2)
      /\ dict_get es2 k = Some (DErr (x_errorf X s)).
  Proof.
    intros R Rep Ei E Ec.
    destruct (set_doc X h _ F m es k i (DErr s) o h1 R Rep (error_ok _ _ _ Ei) (error_rep _ _ _ _ _ Ei) E) as (R1 & Hm & Rep1 & _).
    destruct (clone_document X n h1 _ m _ c h2 R1 Rep1 Ec) as (R2 & U2 & Rep2). cbn [copy_doc] in Rep2.
    eexists. split; [exact Rep2|]. clear.
    induction es as [|[k1 d1] q IH]; cbn [dict_set map fst snd dict_get copy_doc]; [now rewrite str_eqb_refl|].
    destruct (str_eqb k1 k) eqn:E; cbn [map fst snd dict_get copy_doc]; rewrite ?E, ?str_eqb_refl; auto.
  Qed.

  (** A leaf of a map and its image in a clone of the map. *)
  Lemma members_get w F l es k o : holds_members w F l es -> dict_get l k = Some o ->
    exists x, dict_get es k = Some x /\ holds_value w F o x.
  Proof.
    induction 1 as [|k1 o1 x1 l es Hv Hm IH]; cbn [dict_get]; [discriminate|].
    destruct (str_eqb k1 k); [intros [= ->]; eauto|auto].
  Qed.
  Lemma members_got w F l es k x : holds_members w F l es -> dict_get es k = Some x ->
    exists o, dict_get l k = Some o /\ holds_value w F o x.
  Proof.
    induction 1 as [|k1 o1 x1 l es Hv Hm IH]; cbn [dict_get]; [discriminate|].
    destruct (str_eqb k1 k); [intros [= ->]; eauto|auto].
  Qed.
  Lemma map_get {A B} (f : A -> B) es k : dict_get (map (fun kd => (fst kd, f (snd kd))) es) k = option_map f (dict_get es k).
  Proof. induction es as [|[k1 d1] q IH]; cbn; auto. destruct (str_eqb k1 k); auto. Qed.
  Lemma get_In {A} es k (x : A) : dict_get es k = Some x -> In (k, x) es.
  Proof.
    induction es as [|[k1 d1] q IH]; cbn; [discriminate|]. destruct (str_eqb k1 k) eqn:E; [|auto].
    apply str_eqb_eq in E as ->. intros [= ->]. auto.
  Qed.
  Lemma fate_leaf i j : leaf i -> fate_of X i = Copied j -> leaf j.
  Proof.
    unfold leaf. destruct i as [|s|t [p|]|m|[m|]|a|[a|]|v|[v|]|l|l|[l|]|[l|]|s|[[|s|? s]|]|t|f|[f|]|[t|]|n [d|]]; cbn [refers fate_of]; try discriminate; intros _;
      repeat match goal with |- context[if ?b then _ else _] => destruct b end; try (destruct (error_messages l));
      intros E; try discriminate E; injection E as <-; reflexivity.
  Qed.
  Lemma clone_leaf h m k i n c h2 :
    reachable X h -> SpecWorld.object_at (view h) m k = Some i -> leaf i -> has (w_map (view h)) m ->
    clone n X KMap m h = Ok (GVal c, h2) ->
    exists j, fate_of X i = Copied j /\ SpecWorld.object_at (view h2) c k = Some j.
  Proof.
    intros R O Lf [d Hm] E. destruct (returned X n KMap m h _ h2 R (ex_intro _ d Hm) E) as (R2 & U & x & K & C & Re & G & _).
    unfold SpecWorld.object_at, map_at in O. rewrite Hm in O. cbn [the] in O.
    destruct (dict_get d k) as [[v|]|] eqn:Gd; try discriminate.
    inversion K as [j Lj|t p s Fp Hp T|j m0 d0 es Hi Fm Hm0 He|j a l0 ks Hi Fa Ha He]; subst; try discriminate; [|destruct Hi; discriminate].
    destruct Hi as [[= <-]|]; [|discriminate]. rewrite Hm in Hm0. injection Hm0 as <-.
    destruct (members_get _ _ _ _ _ _ He Gd) as (x & Gx & Hx).
    assert (x = HLeaf i) as ->.
    { inversion Hx as [|v0 i0 k0 Fv Hv Ho]; subst. rewrite O in Hv. injection Hv as <-. unfold leaf in Lf.
      inversion Ho; subst; auto; try discriminate; match goal with Hi : _ = _ \/ _ = _ |- _ => destruct Hi as [-> | ->]; discriminate end. }
    assert (Ff : exists j, fate_of X i = Copied j).
    { apply get_In in Gx. cbn [crashes rejects] in C, Re. destruct (fate_of X i) as [j|e|] eqn:Ft; [eauto| |].
      - exfalso. assert (I : In e (flat_map (fun xk => rejects X (snd xk)) es)).
        { apply in_flat_map. exists (k, HLeaf i). split; [exact Gx|]. cbn [rejects snd]. rewrite Ft. now left. }
        rewrite Re in I. exact I.
      - exfalso. assert (true = false); [|discriminate]. rewrite <- C. symmetry. apply existsb_exists.
        exists (k, HLeaf i). split; [exact Gx|]. cbn [crashes snd]. now rewrite Ft. }
    destruct Ff as [j Ft]. exists j. split; [exact Ft|]. cbn [copy] in G.
    inversion G as [j0 Lj|t p s Fp Hp T|j0 m0 d0 es0 Hi Fm0 Hm0 He0|j0 a l0 ks Hi Fa Ha He0]; subst.
    destruct Hi as [[= <-]|]; [|discriminate].
      destruct (members_got _ _ _ _ k (HLeaf j) He0) as (o & Go & Ho).
      { rewrite map_get, Gx. cbn [option_map copy]. now rewrite Ft. }
      unfold SpecWorld.object_at, map_at. rewrite Hm0. cbn [the]. rewrite Go.
      inversion Ho as [|v0 i0 k0 Fv Hv Hob]; subst. rewrite Hv. pose proof (fate_leaf _ _ Lf Ft) as Lj. unfold leaf in Lj.
      inversion Hob; subst; auto.
  Qed.

  (** ** Elements read as messages *)
  Lemma conv_scal h v i s : reachable X h -> w_val (view h) v = Some i -> scalar_of (view h) i = Some s ->
    conv_string X h (IPVal (Some v)) = Ok (GVal (match s with
       | SStr t => t | SBool b => bool_text b | SInt k z => int_text k z | SFlt _ f => format_f f end)).
  Proof.
    intros R W S. pose proof (reachable_Inv _ _ R) as I.
    pose proof (view_impl _ I) as P. apply (im_val _ _ P) in W.
    destruct (deref_scalar h i _ (inv_val h I _ _ W) S) as [D E].
    unfold conv_string. cbn [common_IsNil]. unfold rd_val. rewrite W. cbn [rbind]. unfold conv_held.
    destruct (denotes_type X h i _ E) as [->| ->]; rewrite D; cbn [rbind]; destruct s; reflexivity.
  Qed.

  Lemma conv_any h o : reachable X h -> readable (x_is64 X) (view h) o ->
    exists r, message (view h) o r
      /\ conv_string X h (IPVal o) = Ok (match r with Some t => GVal t | None => GErr [EUnsupported] end).
  Proof.
    intros R H. pose proof (reachable_Inv _ _ R) as I. destruct o as [v|]; [|eexists; split; [constructor|reflexivity]].
    destruct (H v eq_refl) as (i & W & C). destruct C as [(s & S & P)|C].
    - pose proof (conv_scal h v i s R W S) as E. destruct s as [t|b|k z|k f].
      + exists (Some t). split; [eapply me_str; eauto|exact E].
      + exists (Some (bool_text b)). split; [|exact E]. eapply me_scal; eauto; [discriminate|destruct b; constructor].
      + exists (Some (int_text k z)). split; [|exact E]. eapply me_scal; eauto; [discriminate|]. constructor. eapply integer_text_format, P.
      + exists (Some (format_f f)). split; [|exact E]. eapply me_scal; eauto; [discriminate|]. destruct f as [neg m e|[|]|].
        * cbn in P. apply emin_range in P as [? ?]. constructor. now apply fixed_text_format.
        * constructor.
        * constructor.
        * constructor.
    - pose proof (proj1 (im_val _ _ (view_impl _ I) _ _) W) as Q.
      unfold conv_string. cbn [common_IsNil]. unfold rd_val. rewrite Q. cbn [rbind].
      destruct C as [(t & [->|[->|[n ->]]])|[->|[(m & [->| ->])|(a & [->| ->])]]].
      + exists (Some t). split; [eapply me_err; [exact W|now left]|reflexivity].
      + exists (Some t). split; [eapply me_err; [exact W|now right; left]|reflexivity].
      + exists (Some t). split; [eapply me_err; [exact W|right; right; eauto]|reflexivity].
      + exists None. split; [now constructor|]. unfold conv_held, common_GetType. cbn. destruct (x_typed_nil X); reflexivity.
      + exists None. split; [eapply me_map; [exact W|now left]|reflexivity].
      + exists None. split; [eapply me_map; [exact W|now right]|reflexivity].
      + exists None. split; [eapply me_arr; [exact W|now left]|reflexivity].
      + exists None. split; [eapply me_arr; [exact W|now right]|reflexivity].
  Qed.

  Lemma conv_all h l : reachable X h -> Forall (readable (x_is64 X) (view h)) l ->
    exists rs, Forall2 (message (view h)) l rs
      /\ conv_strings X h l = Ok (messages rs, repeat EUnsupported (missing rs)).
  Proof.
    intros R H. induction H as [|o l Ho Hl IH]; [exists []; split; [constructor|reflexivity]|].
    destruct IH as (rs & F & E). destruct (conv_any h o R Ho) as (r & Mr & Er).
    exists (r :: rs). split; [now constructor|]. cbn [conv_strings]. rewrite Er. cbn [rbind]. rewrite E. cbn [rbind].
    destruct r; reflexivity.
  Qed.

  Lemma get_errors_any h m k a l i :
    reachable X h -> has (w_map (view h)) m -> i = IArr a \/ i = IPArr (Some a) ->
    SpecWorld.object_at (view h) m k = Some i ->
    w_arr (view h) a = Some l -> Forall (readable (x_is64 X) (view h)) l ->
    exists rs, Forall2 (message (view h)) l rs
      /\ map_GetErrors X h m k = Ok (if missing rs =? 0 then GVal (map Plain (messages rs)) else GErr (repeat EUnsupported (missing rs))).
  Proof.
    intros R Hm Ei O A S. pose proof (reachable_Inv _ _ R) as I.
    assert (nil_object i = false) as N by (destruct Ei as [->| ->]; reflexivity).
    destruct (map_via_present h I m k i Hm O N) as (v & Hv & _ & _ & Vi).
    destruct (conv_all h l R S) as (rs & F & E). exists rs. split; [exact F|].
    unfold map_GetErrors. rewrite Vi. unfold value_GetErrors, rd_val. rewrite Hv. cbn [rbind].
    apply (im_arr _ _ (view_impl _ I)) in A as [A _].
    assert (iface_IsNil X i = false) as Q.
    { unfold iface_IsNil, common_recognised, common_GetType. destruct Ei as [->| ->]; reflexivity. }
    rewrite Q. assert (rd_arr h a = Ok l) as Ra by (unfold rd_arr; now rewrite A).
    destruct Ei as [->| ->]; rewrite Ra; cbn [rbind]; rewrite E; destruct (missing rs); reflexivity.
  Qed.
End S.
