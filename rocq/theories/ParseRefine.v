(** * The heap parser computes what the tree parser computes *)
From Coq Require Import Ascii String List NArith ZArith Bool Lia.
From Verif Require Import GoStr StrLemmas GoNum GoFloat Heap Common ValueModel ArrayModel MapModel
  SpecDict DictLemmas SpecWorld Inv World Reach ObjFacts SpecDoc RepFacts ParserModel TreeParser ParseWorld.
Import ListNotations.

Section R.
  Context (X : ext) (tn : nils) (own : nat -> Prop) (w0 : world).

  (** The bottom open container is the map [m]. *)
  Fixpoint bottom (zs : list nat) (stk : list (frame * att)) (m : nat) : Prop :=
    match zs, stk with
    | z :: zs', (f, _) :: stk' =>
        match zs' with
        | [] => z = m /\ is_fmap f = true
        | _ => bottom zs' stk' m
        end
    | _, _ => False
    end.

  Definition rootrep (w : world) (zs : list nat) (stk : list (frame * att)) (pr : option nat) (r : root) : Prop :=
    match r with
    | RNone => pr = None /\ stk = []
    | ROpen => exists m, pr = Some m /\ bottom zs stk m
    | RDone d => exists m, pr = Some m /\ rep_obj tn w (Fr own zs) (IMap m) d
    end.

  Record sinv_at (h : heap) (ls : list nat) (pr : option nat) (stk : list (frame * att)) (r : root)
    (w : world) (zs : list nat) : Prop := {
    si_live : live X h w;
    si_base : forall l, (w_next w <= l)%nat -> own l;
    si_same : same_off own w0 w;
    si_next : (w_next w0 <= w_next w)%nat;
    si_nodup : NoDup zs;
    si_zs : Forall (fun z => own z /\ (z < w_next w)%nat) zs;
    si_ls : Forall own ls;
    si_stk : srep tn w (Fr own zs) None ls zs stk;
    si_root : rootrep w zs stk pr r;
    si_tree : tree_inv own w pr }.
  Definition sinv h ls pr stk r : Prop := exists w zs, sinv_at h ls pr stk r w zs.

  Lemma rootrep_frame w w' zs zs' stk stk' pr r :
    keeps_on w w' (Fr own zs) (Fr own zs') ->
    (forall m, bottom zs stk m -> bottom zs' stk' m) -> (stk = [] -> stk' = []) ->
    rootrep w zs stk pr r -> rootrep w' zs' stk' pr r.
  Proof.
    intros K Hb Hn. destruct r; cbn.
    - intros []; auto.
    - intros (m & E & H). eauto.
    - intros (m & E & H). exists m. split; auto. eapply rep_obj_frame; eauto.
  Qed.

  (** Changing the top container. *)
  Lemma sinv_top h ls pr f a stk r w z zs h' w' f' v :
    sinv_at h (v :: ls) pr ((f, a) :: stk) r w (z :: zs) ->
    live X h' w' -> evo own (eq z) w w' ->
    content tn w' (Fr own (z :: zs)) None z f' -> is_fmap f' = is_fmap f ->
    tree_inv own w' pr ->
    sinv h' (v :: ls) pr ((f', a) :: stk) r.
  Proof.
    intros S L' [O SB] C' Ef Tr'. destruct S as [L Bs Sm Nx Nd Zs Ls Sk Rt Tr]. exists w', (z :: zs).
    assert (K : keeps_on w w' (Fr own (z :: zs)) (Fr own (z :: zs))).
    { eapply keeps_Fr; eauto. intros l <-. now left. }
    inversion Nd as [|? ? Nz Nd']; subst. inversion Sk; subst. split; auto.
    - pose proof (on_next _ _ _ O). ownlia.
    - eapply off_trans; eauto.
    - pose proof (on_next _ _ _ O). lia.
    - eapply Forall_impl; [|exact Zs]. cbn. intros. pose proof (on_next _ _ _ O). ownlia.
    - constructor; auto.
      + unfold frame_obj. rewrite Ef. eapply on_val; eauto.
      + apply srep_child with (f := f); auto. eapply srep_frame; eauto. intros x Hx <-. auto.
    - apply rootrep_frame with (w := w) (zs := z :: zs) (stk := (f, a) :: stk); auto; [|discriminate].
      intros m. cbn. destruct zs; auto. intros [? ?]. split; congruence.
  Qed.

  Lemma sinv_nil h pr stk r : sinv h [] pr stk r -> stk = [].
  Proof. intros (w & zs & S). pose proof (srep_len _ _ _ _ _ _ _ (si_stk _ _ _ _ _ _ _ S)) as [A B].
    cbn in *. destruct stk; auto. cbn in *. ownlia. Qed.

  Lemma sinv_cons h v ls pr stk r : sinv h (v :: ls) pr stk r ->
    exists f a stk' z zs w, stk = (f, a) :: stk' /\ sinv_at h (v :: ls) pr ((f, a) :: stk') r w (z :: zs)
      /\ rd_val h v = Ok (frame_obj f z).
  Proof.
    intros (w & zs & S). pose proof (si_stk _ _ _ _ _ _ _ S) as Sk. inversion Sk; subst.
    do 6 eexists. split; [reflexivity|]. split; [exact S|].
    eapply live_rd_val; eauto. apply S.
  Qed.

  (** Agreement of outcomes. *)
  Definition sim {A B} (R : A -> B -> heap -> Prop) (t : res A) (m : res (B * heap)) : Prop :=
    match t, m with
    | Ok a, Ok (b, h) => R a b h
    | Panic, Panic => True
    | _, _ => False
    end.

  Lemma is_map_top h v f z : rd_val h v = Ok (frame_obj f z) ->
    value_is common_IsMap X h v = Ok (is_fmap f).
  Proof.
    intros E. unfold value_is. rewrite E. cbn. destruct f; cbn; reflexivity.
  Qed.
  Lemma is_arr_top h v f z : rd_val h v = Ok (frame_obj f z) ->
    value_is (common_IsArray X) X h v = Ok (negb (is_fmap f)).
  Proof.
    intros E. unfold value_is. rewrite E. cbn. destruct f; cbn; reflexivity.
  Qed.
  Lemma get_map_top h v es z : rd_val h v = Ok (frame_obj (FMap es) z) ->
    value_GetMap X h v = Ok (GVal (Some z)).
  Proof.
    intros E. unfold value_GetMap. rewrite E. cbn. reflexivity.
  Qed.
  Lemma get_arr_top h v es z : rd_val h v = Ok (frame_obj (FArr es) z) ->
    value_GetArray X h v = Ok (GVal (Some z)).
  Proof.
    intros E. unfold value_GetArray. rewrite E. cbn. reflexivity.
  Qed.

  Lemma next_mode_refine h mode ls pr stk r : sinv h ls pr stk r ->
    next_mode X mode ls h = Ok (t_next mode stk, h).
  Proof.
    intros S. destruct ls as [|v ls].
    - apply sinv_nil in S as ->. reflexivity.
    - apply sinv_cons in S as (f & a & stk' & z & zs & w & -> & S & E).
      unfold next_mode, bind, mlift. rewrite (is_map_top _ _ _ _ E). cbn. reflexivity.
  Qed.

  Lemma store_refine h v ls pr f a stk r k p :
    sinv h (v :: ls) pr ((f, a) :: stk) r ->
    exists h', store_payload X v k p h = Ok ([], h')
      /\ sinv h' (v :: ls) pr ((put_doc k (doc_of p) f, a) :: stk) r.
  Proof.
    intros S. pose proof S as S0. apply sinv_cons in S as (f1 & a1 & stk1 & z & zs & w & E0 & S & E).
    inversion E0; subst. clear E0.
    unfold store_payload, bind, mlift. rewrite (is_arr_top _ _ _ _ E). cbn [rbind].
    pose proof (si_live _ _ _ _ _ _ _ S) as L. pose proof (live_bounded _ _ _ L) as B.
    pose proof (si_base _ _ _ _ _ _ _ S) as Bs.
    pose proof (si_stk _ _ _ _ _ _ _ S) as Sk.
    pose proof (si_zs _ _ _ _ _ _ _ S) as Zs. inversion Zs as [|? ? Hz Zs']; subst. cbn in Hz.
    pose proof (si_tree _ _ _ _ _ _ _ S) as Tr.
    inversion Sk as [|? ? ? ? ? ? ? ? Ev Hc Sk']; subst. cbn in Hc.
    assert (NF : forall l, (w_next w <= l)%nat -> Fr own (z :: zs) l).
    { intros l Hl. split; [ownlia|]. intros Hi. rewrite Forall_forall in Zs. apply Zs in Hi. cbn in Hi. ownlia. }
    destruct f1 as [es|ds]; cbn [is_fmap negb].
    - rewrite (is_map_top _ _ _ _ E). cbn [rbind is_fmap]. rewrite (get_map_top _ _ _ _ E). cbn [rbind].
      destruct Hc as (d & Rm & Em). destruct p as [| |s]; cbn [doc_of put_doc].
      + exists h. split; auto.
      + destruct (run_SetObject X h w z k INil d L Em Logic.I) as (h' & E' & L'). unfold bind. rewrite E'.
        exists h'. split; auto.
        assert (O : evo own (eq z) w (new_val w INil)) by now apply evo_newval.
        assert (O2 : evo own (eq z) (new_val w INil) (set_map (new_val w INil) z (dict_set d k (Some (w_next w))))).
        { apply evo_setmap; auto. ownlia. }
        eapply sinv_top; eauto; [eapply evo_trans; eauto| |
          refine (tree_step own w _ pr z (PKey k) (w_next w) _ Tr Bs _ _ _ _ _);
          [apply (evo_trans _ _ _ _ _ O O2)|eapply slot_set_map; eauto; apply put_same|cbn; ownlia|apply put_same|discriminate]].
        cbn. exists (dict_set d k (Some (w_next w))). split; [|apply put_same].
        apply rep_members_set.
        * eapply rep_members_frame; [|exact Rm].
          eapply keeps_Fr with (C := eq z); auto. apply (evo_trans _ _ _ _ _ O O2). intros l <-; now left.
        * eapply rep_some with (i := INil); auto; [apply put_same|constructor].
      + destruct (run_SetScalarValue X h w z k s d L Em) as (h' & E' & L'). unfold bind. rewrite E'.
        exists h'. split; auto.
        set (w1 := new_var w s) in *. set (w2 := new_val w1 (IPtr (stype_of s) (Some (w_next w)))) in *.
        assert (O1 : evo own (eq z) w w1) by now apply evo_newvar.
        assert (B1 : bounded w1) by now apply bounded_newvar.
        assert (O2 : evo own (eq z) w1 w2) by (apply evo_newval; auto; cbn; ownlia).
        set (w3 := set_map w2 z (dict_set d k (Some (Datatypes.S (w_next w))))) in *.
        assert (O3 : evo own (eq z) w2 w3) by (apply evo_setmap; auto; ownlia).
        assert (O : evo own (eq z) w w3) by (eapply evo_trans; [|eapply evo_trans]; eauto).
        eapply sinv_top; eauto; [|
          refine (tree_step own w _ pr z (PKey k) (Datatypes.S (w_next w)) _ Tr Bs _ _ _ _ _);
          [apply O|eapply slot_set_map; eauto; apply put_same|cbn; ownlia|apply put_same|
           intros l Hl; cbn in Hl; inversion Hl; subst; cbn; ownlia]].
        cbn. exists (dict_set d k (Some (Datatypes.S (w_next w)))). split; [|apply put_same].
        apply rep_members_set.
        * eapply rep_members_frame; [|exact Rm].
          eapply keeps_Fr with (C := eq z); auto. apply O. intros l <-; now left.
        * eapply rep_some with (i := IPtr (stype_of s) (Some (w_next w))); auto; [apply put_same|].
          apply rep_ptr; auto. cbn. apply put_same.
    - rewrite (get_arr_top _ _ _ _ E). cbn [rbind].
      destruct Hc as (d & Rm & Em). destruct p as [| |s]; cbn [doc_of put_doc].
      + exists h. split; auto.
      + destruct (run_AppendObject X h w z INil d L Em Logic.I) as (h' & E' & L'). unfold bind. rewrite E'.
        exists h'. split; auto.
        assert (O : evo own (eq z) w (new_val w INil)) by now apply evo_newval.
        assert (O2 : evo own (eq z) (new_val w INil) (set_arr (new_val w INil) z (d ++ [Some (w_next w)]))).
        { apply evo_setarr; auto. ownlia. }
        eapply sinv_top; eauto; [eapply evo_trans; eauto| |
          refine (tree_step own w _ pr z (PIndex (length d)) (w_next w) _ Tr Bs _ _ _ _ _);
          [apply (evo_trans _ _ _ _ _ O O2)|eapply slot_set_arr; eauto; apply put_same|cbn; ownlia|apply put_same|discriminate]].
        cbn. exists (d ++ [Some (w_next w)]). split; [|apply put_same].
        apply rep_elems_app; [|apply rep_elems_one].
        * eapply rep_elems_frame; [|exact Rm].
          eapply keeps_Fr with (C := eq z); auto. apply (evo_trans _ _ _ _ _ O O2). intros l <-; now left.
        * eapply rep_some with (i := INil); auto; [apply put_same|constructor].
      + destruct (run_AppendObject X h w z (IScal s) d L Em Logic.I) as (h' & E' & L'). unfold bind. rewrite E'.
        exists h'. split; auto.
        assert (O : evo own (eq z) w (new_val w (IScal s))) by now apply evo_newval.
        assert (O2 : evo own (eq z) (new_val w (IScal s)) (set_arr (new_val w (IScal s)) z (d ++ [Some (w_next w)]))).
        { apply evo_setarr; auto. ownlia. }
        eapply sinv_top; eauto; [eapply evo_trans; eauto| |
          refine (tree_step own w _ pr z (PIndex (length d)) (w_next w) _ Tr Bs _ _ _ _ _);
          [apply (evo_trans _ _ _ _ _ O O2)|eapply slot_set_arr; eauto; apply put_same|cbn; ownlia|apply put_same|discriminate]].
        cbn. exists (d ++ [Some (w_next w)]). split; [|apply put_same].
        apply rep_elems_app; [|apply rep_elems_one].
        * eapply rep_elems_frame; [|exact Rm].
          eapply keeps_Fr with (C := eq z); auto. apply (evo_trans _ _ _ _ _ O O2). intros l <-; now left.
        * eapply rep_some with (i := IScal s); auto; [apply put_same|constructor].
  Qed.

  Lemma value_text_no_stuck b k v : match value_text b k v with Ok _ | Panic => True | _ => False end.
  Proof.
    unfold value_text.
    assert (E1 : match (if b then
            if is_quoted (clean k) then
              match slice_inner (clean k) with Some k' => Ok (k', []) | None => Panic end
            else Ok (clean k, [EKeyQuote])
          else Ok (clean k, [])) with Ok _ | Panic => True | _ => False end)
      by (destruct b; [|exact Logic.I]; destruct (is_quoted (clean k)); [|exact Logic.I]; destruct (slice_inner (clean k)); exact Logic.I).
    assert (E2 : match (if contains_byte c_dq (clean v) then
            if is_quoted (clean v) then
              match slice_inner (clean v) with Some v' => Ok (true, v', []) | None => Panic end
            else Ok (false, clean v, [EValQuote])
          else Ok (false, clean v, [])) with Ok _ | Panic => True | _ => False end)
      by (destruct (contains_byte c_dq (clean v)); [|exact Logic.I]; destruct (is_quoted (clean v)); [|exact Logic.I]; destruct (slice_inner (clean v)); exact Logic.I).
    destruct (if b then _ else _) as [[k' e]| | |]; cbn; auto.
    destruct (if contains_byte c_dq (clean v) then _ else _) as [[[q v'] e']| | |]; cbn; auto.
    destruct (e ++ e'); auto. destruct q; auto.
  Qed.

  Lemma parse_value_refine h ls pr stk r tk tv : sinv h ls pr stk r ->
    sim (fun q e h' => e = snd q /\ sinv h' ls pr (fst q) r) (t_value tk tv stk) (parseJSONValue X tk tv ls h).
  Proof.
    intros S. destruct ls as [|v ls].
    - pose proof (sinv_nil _ _ _ _ S) as ->. cbn. auto.
    - pose proof S as S0. apply sinv_cons in S as (f & a & stk' & z & zs & w & -> & S & E).
      unfold parseJSONValue, t_value, bind, mlift. rewrite (is_map_top _ _ _ _ E). cbn [rbind].
      pose proof (value_text_no_stuck (is_fmap f) tk tv) as N.
      destruct (value_text (is_fmap f) tk tv) as [[[k p]|e]| | |]; cbn; try contradiction; auto.
      destruct (store_refine _ _ _ _ _ _ _ _ k p S0) as (h' & E' & S').
      rewrite E'. cbn. auto.
  Qed.

  Lemma bottom_cons z zs f a stk m : zs <> [] -> bottom (z :: zs) ((f, a) :: stk) m = bottom zs stk m.
  Proof. destruct zs; cbn; congruence. Qed.

  (** Removing the top container. *)
  Lemma pop_refine h v ls pr stk r : sinv h (v :: ls) pr stk r ->
    exists q, t_pop stk r = Ok q /\ sinv h ls pr (fst q) (snd q).
  Proof.
    intros S. apply sinv_cons in S as (f & a & stk' & z & zs & w & -> & S & E).
    destruct S as [L Bs Sm Nx Nd Zs Ls Sk Rt Tr].
    inversion Nd as [|? ? Nz Nd']; subst. inversion Zs as [|? ? Hz Zs']; subst. cbn in Hz.
    inversion Sk as [|? ? ? ? ? ? ? ? Ev Hc Sk']; subst. inversion Ls as [|? ? Hv Ls']; subst.
    assert (K : keeps_on w w (Fr own (z :: zs)) (Fr own zs)).
    { apply keeps_on_mono. intros l [A B]. split; auto. intros C. apply B. now right. }
    assert (Fz : Fr own zs z) by (split; [ownlia|auto]).
    assert (Hc' : content tn w (Fr own zs) None z f).
    { apply content_frame with (w := w) (F := Fr own (z :: zs)) (C := fun _ => False); auto. apply only_refl. }
    assert (Sk2 : srep tn w (Fr own zs) (Some (a, f, z)) ls zs stk').
    { apply srep_frame with (w := w) (F := Fr own (z :: zs)) (C := fun _ => False); auto. apply only_refl. }
    destruct stk' as [|[g b] stk'].
    - inversion Sk'; subst. cbn. eexists. split; [reflexivity|]. cbn.
      exists w, []. split; auto; [constructor|].
      destruct r; cbn in *.
      + destruct Rt; discriminate.
      + destruct Rt as (m & E1 & E2 & E3). subst. exists m. split; auto.
        destruct f as [es|]; [|discriminate]. cbn in Hc'.
        apply (content_close tn w (Fr own []) m (FMap es) (IMap m)); auto. cbn. auto.
      + destruct Rt as (m & E1 & E2). exists m. split; auto. eapply rep_obj_frame; eauto.
    - cbn. eexists. split; [reflexivity|]. cbn. exists w, zs. split; auto.
      + inversion Sk2; subst. constructor; auto.
        * unfold frame_obj in *. destruct a, g; cbn in *; auto.
        * apply content_pop with (z := z); auto.
        * apply srep_child with (f := g); auto. destruct a, g; reflexivity.
      + pose proof (srep_len _ _ _ _ _ _ _ Sk2) as [_ Len]. eapply rootrep_frame; [exact K| | |exact Rt]; [|discriminate].
        intros m. rewrite bottom_cons by (destruct zs; discriminate || congruence).
        destruct zs as [|z' zs]; auto. cbn. destruct zs; auto. intros [-> Hf]. split; auto.
        destruct a, g; auto.
  Qed.

  Lemma unquote_no_stuck k : match unquote_key k with Ok _ | Panic => True | _ => False end.
  Proof. unfold unquote_key. destruct (is_quoted k); auto. destruct (slice_inner k); auto. Qed.

  (** Pushing a new container [z'] whose Value is [v'] (both allocated in [w1]
      from [w]), attached as [a'] to the top. *)
  Lemma sinv_push h ls pr stk r w zs h2 w2 f0 a' z' v' pr' r' (C : nat -> Prop) :
    sinv_at h ls pr stk r w zs ->
    live X h2 w2 ->
    evo own C w w2 -> (forall l, C l -> hd_error zs = Some l) ->
    own v' ->
    (w_next w <= z' < w_next w2)%nat ->
    w_val w2 v' = Some (frame_obj f0 z') ->
    content tn w2 (Fr own (z' :: zs)) None z' f0 ->
    match zs, stk with
    | z :: _, (f, _) :: _ => content tn w2 (Fr own (z' :: zs)) (Some (a', f0, z')) z f
    | _, _ => True
    end ->
    match stk with
    | [] => match r with RNone => is_fmap f0 = true /\ pr' = Some z' /\ r' = ROpen | _ => pr' = pr /\ r' = r end
    | _ => pr' = pr /\ r' = r
    end ->
    tree_inv own w2 pr' ->
    sinv h2 (v' :: ls) pr' ((f0, a') :: stk) r'.
  Proof.
    intros S L2 [O SB] HC Hv' Hz' Ev' Hc Hp Hr Tr2. destruct S as [L Bs Sm Nx Nd Zs Ls Sk Rt Tr].
    pose proof (live_bounded _ _ _ L) as B.
    assert (Nz : ~ In z' zs).
    { intros Hi. rewrite Forall_forall in Zs. apply Zs in Hi. cbn in Hi. ownlia. }
    assert (K : keeps_on w w2 (Fr own zs) (Fr own (z' :: zs))).
    { eapply keeps_Fr; eauto.
      - intros l Hl. apply HC in Hl. destruct zs; cbn in *; [discriminate|]. inversion Hl; auto.
      - intros z [<-|]; auto. right. apply bounded_fresh; auto. ownlia. }
    exists w2, (z' :: zs). split; auto.
    - pose proof (on_next _ _ _ O). ownlia.
    - eapply off_trans; eauto.
    - pose proof (on_next _ _ _ O). lia.
    - constructor; auto.
    - constructor; [ownlia|]. eapply Forall_impl; [|exact Zs]. cbn. intros. pose proof (on_next _ _ _ O). ownlia.
    - constructor; auto. inversion Sk; subst; constructor; auto.
      + eapply on_val; eauto.
      + inversion Nd; subst. eapply srep_frame; eauto.
        intros y Hy Hcy. apply HC in Hcy. cbn in Hcy. inversion Hcy; subst. contradiction.
    - destruct stk as [|fa stk].
      + inversion Sk; subst. destruct r; cbn in Rt.
        * destruct Hr as (Hf & -> & ->). cbn. eauto.
        * destruct Rt as (m & _ & []).
        * destruct Hr as (-> & ->). destruct Rt as (m & E & Rp). cbn. exists m. split; auto.
          eapply rep_obj_frame; eauto.
      + destruct Hr as (-> & ->). inversion Sk; subst.
        eapply rootrep_frame; [exact K| | |exact Rt]; [|discriminate]. intros m. cbn. auto.
  Qed.

  Lemma ok_map_new w : ok_object (w_newmap w) (IMap (Datatypes.S (w_next w))).
  Proof. exists []. cbn. apply put_same. Qed.
  Lemma ok_arr_new w : ok_object (w_newarr w) (IArr (w_next w)).
  Proof. exists []. cbn. apply put_same. Qed.

  Lemma bounded_newmap w : bounded w -> bounded (w_newmap w).
  Proof.
    intros (A & B & C & D). repeat split; cbn; intros v j; unfold put; try destruct (Nat.eqb_spec v (Datatypes.S (w_next w))); intros;
      try (subst; ownlia); repeat match goal with H : forall v j, _ -> _, E : _ v = Some _ |- _ => apply H in E end; ownlia.
  Qed.
  Lemma bounded_newarr w : bounded w -> bounded (w_newarr w).
  Proof.
    intros (A & B & C & D). repeat split; cbn; intros v j; unfold put; try destruct (Nat.eqb_spec v (w_next w)); intros;
      try (subst; ownlia); repeat match goal with H : forall v j, _ -> _, E : _ v = Some _ |- _ => apply H in E end; ownlia.
  Qed.

  Definition new_root (z : nat) (pr : option nat) : option nat := match pr with None => Some z | r => r end.

  (** Attaching a new container to the top and pushing it; [f0] is its frame. *)
  Lemma attach_push h ls pr stk r w zs h1 w1 f0 z' v' tk in_map in_arr pr' r' :
    sinv_at h ls pr stk r w zs ->
    live X h1 w1 -> (forall C, evo own C w w1) ->
    (w_next w <= z' < w_next w1)%nat -> (w_next w <= v')%nat -> v' <> z' ->
    w_val w1 v' = Some (frame_obj f0 z') ->
    (forall F, content tn w1 F None z' f0) ->
    (* what a map parent receives *)
    (forall z k d, w_map w1 z = Some d -> own z /\ (z < w_next w)%nat ->
       exists h2 w2 u i, in_map z k h1 = Ok (tt, h2) /\ live X h2 w2 /\ evo own (eq z) w1 w2
         /\ (w_next w <= u)%nat /\ u <> z' /\ w_val w2 u = Some i /\ frame_handle f0 z' i
         /\ w_map w2 z = Some (dict_set d k (Some u))) ->
    (* what an array parent receives *)
    (forall z l, w_arr w1 z = Some l -> own z /\ (z < w_next w)%nat ->
       exists h2 w2 u i, in_arr z h1 = Ok (tt, h2) /\ live X h2 w2 /\ evo own (eq z) w1 w2
         /\ (w_next w <= u)%nat /\ u <> z' /\ w_val w2 u = Some i /\ frame_handle f0 z' i
         /\ w_arr w2 z = Some (l ++ [Some u])) ->
    match stk with
    | [] => match r with RNone => is_fmap f0 = true /\ pr' = Some z' /\ r' = ROpen | _ => pr' = pr /\ r' = r end
    | _ => pr' = pr /\ r' = r
    end ->
    sim (fun q e h' => e = snd q /\ sinv h' (v' :: ls) pr' ((f0, fst q) :: stk) r')
      (t_attach tk stk) (attach X ls tk in_map in_arr h1).
  Proof.
    intros S L1 EV Hz' Hv' Hne Ev' Hc HM HA Hr.
    pose proof S as [L Bs Sm Nx Nd Zs Ls Sk Rt Tr].
    pose proof (live_bounded _ _ _ L) as B.
    inversion Sk as [|? v vs z zs0 f a stk0 Ev Hcz Sk']; subst.
    - cbn. split; auto. eapply sinv_push with (C := fun _ => False); eauto; try tauto.
      apply tree_same with (w := w) (pr := pr); auto; [apply EV|].
      destruct r; [destruct Hr as (_ & -> & _); eauto|left; tauto..].
    - inversion Zs as [|? ? Hz Zs']; subst. cbn in Hz.
      assert (Hn : forall x, (w_next w <= x)%nat -> x <> z' -> Fr own (z' :: z :: zs0) x).
      { intros x Hx Nx2. split; [ownlia|]. intros [|Hi]; [congruence|].
        rewrite Forall_forall in Zs. apply Zs in Hi. cbn in Hi. ownlia. }
      assert (Ev1 : w_val w1 v = Some (frame_obj f z)) by (eapply on_val; eauto; apply (EV (fun _ => False))).
      pose proof (live_rd_val _ _ _ _ _ L1 Ev1) as Rv.
      assert (K1 : keeps_on w w1 (Fr own (z :: zs0)) (Fr own (z' :: z :: zs0))).
      { apply keeps_Fr with (C := fun _ => False); [apply EV|tauto|].
        intros y [<-|]; auto. right. apply bounded_fresh; auto. ownlia. }
      assert (Hcz1 : content tn w1 (Fr own (z' :: z :: zs0)) None z f).
      { apply content_frame with (w := w) (F := Fr own (z :: zs0)) (C := fun _ => False); auto. apply EV. }
      assert (Push : forall h2 w2 a' , live X h2 w2 -> evo own (eq z) w1 w2 ->
          content tn w2 (Fr own (z' :: z :: zs0)) (Some (a', f0, z')) z f ->
          tree_inv own w2 pr ->
          sinv h2 (v' :: v :: vs) pr' ((f0, a') :: (f, a) :: stk0) r').
      { intros h2 w2 a' L2 E2 C2 Tr2. apply (sinv_push h (v :: vs) pr ((f, a) :: stk0) r w (z :: zs0) h2 w2 f0 a' z' v' pr' r' (eq z)); auto.
        - eapply evo_trans; eauto.
        - intros l <-. reflexivity.
        - pose proof (on_next _ _ _ (proj1 E2)). ownlia.
        - eapply on_val; eauto. apply E2.
        - apply content_frame with (w := w1) (F := Fr own (z' :: z :: zs0)) (C := eq z); auto; [apply E2| |].
          + apply keeps_Fr with (C := eq z); auto; [apply E2|]. intros l <-. right. now left.
          + intros ->. ownlia.
        - destruct Hr as [-> _]. exact Tr2. }
      assert (TS : forall h2 w2 p0 u i, live X h2 w2 -> evo own (eq z) w1 w2 ->
          (forall p x, slot w2 z p x -> slot w z p x \/ p = p0 /\ x = u) ->
          (w_next w <= u)%nat -> w_val w2 u = Some i -> frame_handle f0 z' i -> tree_inv own w2 pr).
      { intros h2 w2 p0 u i L2 E2 Sl Hu Eu Hh. apply tree_step with (w := w) (z := z) (p0 := p0) (u := u) (i0 := i); auto.
        - eapply only_trans; [apply EV|apply E2].
        - pose proof (live_bounded _ _ _ L2) as (Bv & _). apply Bv in Eu. ownlia.
        - intros l Hl. pose proof (on_next _ _ _ (proj1 E2)).
          unfold frame_handle in Hh. destruct (is_fmap f0), Hh; subst i; cbn in Hl; inversion Hl; subst; ownlia. }
      assert (M1 : forall d, w_map w1 z = Some d -> content tn w (Fr own (z :: zs0)) None z f -> is_fmap f = true -> w_map w z = Some d).
      { intros d Ed Cz Ff. destruct f; [|discriminate]. destruct Cz as (d' & _ & Ed').
        rewrite (on_map _ _ _ (proj1 (EV (fun _ => False))) z d') in Ed; auto. congruence. }
      assert (A1 : forall d, w_arr w1 z = Some d -> content tn w (Fr own (z :: zs0)) None z f -> is_fmap f = false -> w_arr w z = Some d).
      { intros d Ed Cz Ff. destruct f; [discriminate|]. destruct Cz as (d' & _ & Ed').
        rewrite (on_arr _ _ _ (proj1 (EV (fun _ => False))) z d') in Ed; auto. congruence. }
      assert (K2 : forall w2, evo own (eq z) w1 w2 ->
        keeps_on w1 w2 (Fr own (z' :: z :: zs0)) (Fr own (z' :: z :: zs0))).
      { intros w2 E2. apply keeps_Fr with (C := eq z); auto; [apply E2|]. intros l <-. right. now left. }
      unfold attach, bind, mlift. rewrite (is_map_top _ _ _ _ Rv). cbn [rbind t_attach].
      destruct f as [es|ds]; cbn [is_fmap].
      + pose proof (unquote_no_stuck tk) as N.
        destruct (unquote_key tk) as [[k|e]| | |]; cbn [rbind]; try contradiction; cbn [sim]; auto.
        * rewrite (get_map_top _ _ _ _ Rv). cbn [rbind].
          destruct Hcz1 as (d & Rm & Em). destruct (HM z k d Em) as (h2 & w2 & u & i & -> & L2 & E2 & Hu & Nu & Eu & Hh & Ez); [ownlia|].
          cbn. split; auto. apply (Push h2 w2); auto; [cbn; exists u, i; split; [auto|]; split; auto; split; auto|].
          { exists d. split; auto. eapply rep_members_frame; eauto. }
          apply (TS h2 w2 (PKey k) u i); auto. eapply slot_set_map; eauto.
        * cbn. split; auto. apply (Push h1 w1); auto. apply evo_refl.
          apply tree_same with (w := w) (pr := pr); auto. apply EV.
      + rewrite (get_arr_top _ _ _ _ Rv). cbn [rbind].
        destruct Hcz1 as (d & Rm & Em). destruct (HA z d Em) as (h2 & w2 & u & i & -> & L2 & E2 & Hu & Nu & Eu & Hh & Ez); [ownlia|].
        cbn. split; auto. apply (Push h2 w2); auto; [cbn; exists u, i; split; [auto|]; split; auto; split; auto|].
        { exists d. split; auto. eapply rep_elems_frame; eauto. }
        apply (TS h2 w2 (PIndex (length d)) u i); auto. eapply slot_set_arr; eauto.
  Qed.

  Definition pinv (ts : tst) (st : pst) (h : heap) : Prop :=
    exists ls pr, st = PSt (t_mode ts) (t_ps ts) (t_tk ts) (t_tv ts) ls pr (t_cnt ts) (t_errs ts)
      /\ sinv h ls pr (t_stk ts) (t_root ts).

  Lemma open_map_refine ts st h : pinv ts st h -> sim pinv (t_open_map ts) (open_map X st h).
  Proof.
    intros (ls & pr & -> & w & zs & S). unfold open_map, t_open_map, bind at 1. cbn [p_list p_tk p_ps p_root p_cnt p_errs].
    pose proof (si_live _ _ _ _ _ _ _ S) as L. pose proof (live_bounded _ _ _ L) as B.
    pose proof (si_base _ _ _ _ _ _ _ S) as Bs.
    destruct (run_new_map _ _ _ L) as (h1 & -> & L1).
    unfold bind at 1. destruct (run_new_value _ _ _ _ L1 (ok_map_new w)) as (h2 & -> & L2).
    set (z' := Datatypes.S (w_next w)) in *. set (w2 := new_val (w_newmap w) (IMap z')) in *.
    set (v' := w_next (w_newmap w)) in *.
    assert (A : sim (fun q e h' => e = snd q /\ sinv h' (v' :: ls) (new_root z' pr) ((FMap [], fst q) :: t_stk ts)
                   (match t_root ts with RNone => ROpen | r => r end))
      (t_attach (t_tk ts) (t_stk ts))
      (attach X ls (t_tk ts) (fun top k => map_SetValue top k (Some v')) (fun top => arr_AppendValue top (Some v')) h2)).
    { assert (V2 : w_val w2 v' = Some (IMap z')) by apply put_same.
      apply (attach_push h ls pr (t_stk ts) (t_root ts) w zs h2 w2 (FMap []) z' v'); auto.
      - intros C. eapply evo_trans; [apply evo_newmap; auto|]. apply evo_newval; [now apply bounded_newmap|cbn; ownlia].
      - cbn. unfold z'. ownlia.
      - cbn. ownlia.
      - unfold v', z'. cbn. ownlia.
      - intros F. cbn. exists []. split; [constructor|]. cbn. apply put_same.
      - intros z k d Ez Hz. destruct (run_SetValue X h2 w2 z k (Some v') d L2 Ez) as (h3 & E3 & L3).
        { cbn. eexists. exact V2. }
        exists h3, (set_map w2 z (dict_set d k (Some v'))), v', (IMap z'). rewrite E3. split; auto. split; auto.
        split; [apply evo_setmap; auto; ownlia|]. split; [unfold v'; cbn; ownlia|]. split; [unfold v', z'; cbn; ownlia|].
        split; [exact V2|]. split; [left; reflexivity|]. apply put_same.
      - intros z l Ez Hz. destruct (run_AppendValue X h2 w2 z (Some v') l L2 Ez) as (h3 & E3 & L3).
        { cbn. eexists. exact V2. }
        exists h3, (set_arr w2 z (l ++ [Some v'])), v', (IMap z'). rewrite E3. split; auto. split; auto.
        split; [apply evo_setarr; auto; ownlia|]. split; [unfold v'; cbn; ownlia|]. split; [unfold v', z'; cbn; ownlia|].
        split; [exact V2|]. split; [left; reflexivity|]. apply put_same.
      - pose proof (si_root _ _ _ _ _ _ _ S) as Rt. unfold new_root. destruct (t_root ts); cbn in Rt.
        + destruct Rt as [-> ->]. auto.
        + destruct Rt as (m & -> & _). destruct (t_stk ts); auto.
        + destruct Rt as (m & -> & _). destruct (t_stk ts); auto. }
    unfold bind. destruct (t_attach _ _) as [q| | |]; destruct (attach _ _ _ _ _ _) as [[e h3]| | |]; cbn in A; try contradiction; cbn; auto.
    destruct A as [-> A]. exists (v' :: ls), (new_root z' pr). split; [destruct pr; reflexivity|exact A].
  Qed.

  Lemma open_array_refine ts st h : pinv ts st h -> sim pinv (t_open_array ts) (open_array X st h).
  Proof.
    intros (ls & pr & -> & w & zs & S). unfold open_array, t_open_array. cbn [p_list p_tk p_ps p_root p_cnt p_errs].
    destruct ls as [|v0 ls].
    { assert (E : t_stk ts = []) by (eapply sinv_nil; exists w, zs; eauto). now rewrite E. }
    pose proof (si_live _ _ _ _ _ _ _ S) as L. pose proof (live_bounded _ _ _ L) as B.
    pose proof (si_base _ _ _ _ _ _ _ S) as Bs.
    unfold bind at 1. destruct (run_new_array _ _ _ L) as (h1 & -> & L1).
    unfold bind at 1. destruct (run_new_value _ _ _ _ L1 (ok_arr_new w)) as (h2 & -> & L2).
    set (z' := w_next w) in *. set (w2 := new_val (w_newarr w) (IArr z')) in *.
    set (v' := w_next (w_newarr w)) in *.
    destruct (t_stk ts) as [|fa stk] eqn:Est.
    { pose proof (si_stk _ _ _ _ _ _ _ S) as Q. inversion Q. }
    assert (A : sim (fun q e h' => e = snd q /\ sinv h' (v' :: v0 :: ls) pr ((FArr [], fst q) :: fa :: stk) (t_root ts))
      (t_attach (t_tk ts) (fa :: stk))
      (attach X (v0 :: ls) (t_tk ts) (fun top k => map_SetArrayValue top k z') (fun top => arr_AppendValue top (Some v')) h2)).
    { assert (V2 : w_val w2 v' = Some (IArr z')) by apply put_same.
      assert (B2 : bounded w2) by (apply bounded_newval, bounded_newarr; auto).
      apply (attach_push h (v0 :: ls) pr (fa :: stk) (t_root ts) w zs h2 w2 (FArr []) z' v'); auto.
      - intros C. eapply evo_trans; [apply evo_newarr; auto|]. apply evo_newval; [now apply bounded_newarr|cbn; ownlia].
      - cbn. unfold z'. ownlia.
      - cbn. ownlia.
      - unfold v', z'. cbn. ownlia.
      - intros F. cbn. exists []. split; [constructor|]. cbn. apply put_same.
      - intros z k d Ez Hz. destruct (run_SetObject X h2 w2 z k (IPArr (Some z')) d L2 Ez) as (h3 & E3 & L3).
        { cbn. eexists. cbn. apply put_same. }
        unfold map_SetArrayValue. rewrite E3.
        exists h3, (set_map (new_val w2 (IPArr (Some z'))) z (dict_set d k (Some (w_next w2)))), (w_next w2), (IPArr (Some z')).
        split; auto. split; auto.
        split; [eapply evo_trans; [apply evo_newval; auto; cbn; ownlia|]; apply evo_setmap; auto; ownlia|].
        split; [cbn; ownlia|]. split; [unfold z'; cbn; ownlia|].
        split; [cbn; apply put_same|]. split; [right; reflexivity|]. apply put_same.
      - intros z l Ez Hz. destruct (run_AppendValue X h2 w2 z (Some v') l L2 Ez) as (h3 & E3 & L3).
        { cbn. eexists. exact V2. }
        exists h3, (set_arr w2 z (l ++ [Some v'])), v', (IArr z'). rewrite E3. split; auto. split; auto.
        split; [apply evo_setarr; auto; ownlia|]. split; [unfold v'; cbn; ownlia|]. split; [unfold v', z'; cbn; ownlia|].
        split; [exact V2|]. split; [left; reflexivity|]. apply put_same. }
    unfold bind. destruct (t_attach _ _) as [q| | |]; destruct (attach _ _ _ _ _ _) as [[e h3]| | |]; cbn in A; try contradiction; cbn; auto.
    destruct A as [-> A]. exists (v' :: v0 :: ls), pr. split; auto.
  Qed.

  Lemma end_value_refine ts st h pop : pinv ts st h -> sim pinv (t_end pop ts) (end_value X pop st h).
  Proof.
    intros (ls & pr & -> & S). unfold end_value, t_end, bind. cbn [p_list p_tk p_tv p_ps p_root p_cnt p_errs p_mode].
    pose proof (parse_value_refine _ _ _ _ _ (t_tk ts) (t_tv ts) S) as A.
    destruct (t_value _ _ _) as [q| | |]; destruct (parseJSONValue _ _ _ _ _) as [[e h1]| | |];
      cbn in A; try contradiction; cbn [rbind sim]; auto.
    destruct A as [-> S1]. destruct pop.
    - destruct ls as [|v ls].
      + apply sinv_nil in S1. rewrite S1. cbn. auto.
      + destruct (pop_refine _ _ _ _ _ _ S1) as (p & -> & S2). cbn [rbind]. unfold ret at 1.
        rewrite (next_mode_refine _ (t_mode ts) _ _ _ _ S2). cbn. exists ls, pr. auto.
    - cbn [rbind]. unfold ret at 1. rewrite (next_mode_refine _ (t_mode ts) _ _ _ _ S1). cbn. exists ls, pr. auto.
  Qed.

  Lemma close_keys_refine ts st h : pinv ts st h -> sim pinv (t_close_keys ts) (close_keys X st h).
  Proof.
    intros (ls & pr & -> & S). unfold close_keys, t_close_keys, bind. cbn [p_list p_tk p_tv p_ps p_root p_cnt p_errs p_mode].
    destruct ls as [|v ls].
    - apply sinv_nil in S. rewrite S. cbn. auto.
    - destruct (pop_refine _ _ _ _ _ _ S) as (p & -> & S2). cbn [rbind].
      rewrite (next_mode_refine _ (t_mode ts) _ _ _ _ S2). cbn. exists ls, pr. auto.
  Qed.

  Lemma pinv_mode ts st h m : pinv ts st h -> pinv (t_set_mode m ts) (set_mode m st) h.
  Proof. intros (ls & pr & -> & S). exists ls, pr. auto. Qed.
  Lemma pinv_key ts st h s : pinv ts st h -> pinv (t_add_key s ts) (add_key s st) h.
  Proof. intros (ls & pr & -> & S). exists ls, pr. auto. Qed.
  Lemma pinv_val ts st h s : pinv ts st h -> pinv (t_add_val s ts) (add_val s st) h.
  Proof. intros (ls & pr & -> & S). exists ls, pr. auto. Qed.
  Lemma pinv_ps ts st h b c : pinv ts st h -> pinv (t_set_ps b c ts) (set_ps b c st) h.
  Proof. intros (ls & pr & -> & S). exists ls, pr. auto. Qed.
  Lemma pinv_fields ts st h : pinv ts st h ->
    p_mode st = t_mode ts /\ p_ps st = t_ps ts /\ p_cnt st = t_cnt ts /\ p_errs st = t_errs ts.
  Proof. intros (ls & pr & -> & S). auto. Qed.

  Lemma step_mode_refine q b ts st h : pinv ts st h -> sim pinv (t_step_mode q b ts) (step_mode X q b st h).
  Proof.
    intros P. unfold step_mode, t_step_mode.
    assert (V : forall ts st, pinv ts st h ->
      sim pinv
        (let st := t_set_mode MValue ts in
         if negb (t_ps st) then
          if Ascii.eqb b c_lb then t_open_map st
          else if Ascii.eqb b c_rb then t_end true st
          else if Ascii.eqb b c_ls then t_open_array st
          else if Ascii.eqb b c_rs then t_end true st
          else if Ascii.eqb b c_com then t_end false st
          else Ok (t_add_val (utf8_of_byte b) st)
        else Ok (t_add_val (utf8_of_byte b) st))
        ((let st := set_mode MValue st in
         if negb (p_ps st) then
          if Ascii.eqb b c_lb then open_map X st
          else if Ascii.eqb b c_rb then end_value X true st
          else if Ascii.eqb b c_ls then open_array X st
          else if Ascii.eqb b c_rs then end_value X true st
          else if Ascii.eqb b c_com then end_value X false st
          else ret (add_val (utf8_of_byte b) st)
        else ret (add_val (utf8_of_byte b) st)) h)).
    { clear P ts st. intros ts st P. pose proof (pinv_mode _ _ _ MValue P) as P'. cbn zeta.
      pose proof (pinv_fields _ _ _ P') as (_ & Eps & _ & _). rewrite Eps.
      destruct (negb _).
      - destruct (Ascii.eqb b c_lb); [now apply open_map_refine|].
        destruct (Ascii.eqb b c_rb); [now apply end_value_refine|].
        destruct (Ascii.eqb b c_ls); [now apply open_array_refine|].
        destruct (Ascii.eqb b c_rs); [now apply end_value_refine|].
        destruct (Ascii.eqb b c_com); [now apply end_value_refine|].
        now apply pinv_val.
      - now apply pinv_val. }
    pose proof (pinv_fields _ _ _ P) as (Em & _). rewrite Em.
    destruct (t_mode ts); cbn [andb].
    - destruct (Ascii.eqb b c_rb); [now apply close_keys_refine|].
      destruct q; [|exact P]. now apply pinv_key, pinv_mode.
    - cbn [sim ret]. destruct q; [now apply pinv_key, pinv_mode|now apply pinv_key].
    - cbn [sim ret]. destruct (Ascii.eqb b c_col); [now apply pinv_mode|exact P].
    - now apply V.
    - destruct (_ || _); [exact P|]. now apply V.
  Qed.

  Lemma step_refine prev b ts st h : pinv ts st h -> sim pinv (t_step prev b ts) (step X prev b st h).
  Proof.
    intros P. unfold step, t_step.
    pose proof (pinv_fields _ _ _ P) as (Em & Eps & Ec & _). rewrite Eps, Ec. cbn zeta.
    destruct (negb _); destruct (_ && _); try (now apply step_mode_refine, pinv_ps); try now apply step_mode_refine.
    pose proof (pinv_ps _ _ _ false (count_close (t_cnt ts)) P) as P'.
    replace (p_mode (set_ps false (count_close (t_cnt ts)) st)) with (t_mode (t_set_ps false (count_close (t_cnt ts)) ts))
      by (symmetry; apply (pinv_fields _ _ _ P')).
    destruct (t_mode (t_set_ps false (count_close (t_cnt ts)) ts));
      first [apply step_mode_refine; exact P' | apply end_value_refine, pinv_val; exact P'].
  Qed.

  Lemma loop_refine s : forall prev ts st h, pinv ts st h ->
    sim pinv (t_loop prev s ts) (parse_loop X prev s st h).
  Proof.
    induction s as [|b s IH]; intros prev ts st h P; cbn [t_loop parse_loop]; [exact P|].
    pose proof (step_refine prev b _ _ _ P) as A. unfold bind.
    destruct (t_step _ _ _) as [ts1| | |]; destruct (step _ _ _ _ _) as [[st1 h1]| | |]; cbn in A; try contradiction; cbn [rbind sim]; auto.
  Qed.

End R.
