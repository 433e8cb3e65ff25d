(** * The clone of a map that lists other names than it holds *)
From Coq Require Import Ascii String List NArith ZArith Bool Lia.
From Verif Require Import GoStr StrLemmas GoNum GoFloat Heap Common ValueModel ArrayModel MapModel JsonModel
  SpecDict DictLemmas SpecWorld SpecValues Inv World Reach ValuesFacts SpecRelabel RelabelModel RelabelFacts SpecHanded HandedModel HandedFacts
  SpecReclone RecloneFacts RecloneDeep.
Import ListNotations.
Open Scope nat_scope.

Lemma nth_error_eq {A} (l l' : list A) : (forall x, nth_error l x = nth_error l' x) -> l = l'.
Proof.
  revert l'. induction l as [|a l IH]; intros [|a' l'] H; auto; try (specialize (H 0); discriminate).
  pose proof (H 0) as H0. cbn in H0. injection H0 as ->. f_equal. apply IH. intros x. exact (H (S x)).
Qed.
Lemma nth_error_firstn' {A} (l : list A) n x : nth_error (firstn n l) x = if Nat.ltb x n then nth_error l x else None.
Proof.
  revert n x. induction l as [|a l IH]; intros [|n] [|x]; cbn [firstn nth_error]; auto; try (now destruct (Nat.ltb _ _)).
  apply (IH n x).
Qed.
Lemma reclone_adds X n kd l h r h' : clone n X kd l h = Ok (r, h') -> exists t, h' = h ++ t.
Proof.
  intros E. destruct (proj1 (clone_fine X n) (length h) kd l h r h' (le_n _) E) as [[L K] _]. exists (skipn (length h) h').
  rewrite <- (firstn_skipn (length h) h') at 1. f_equal. apply nth_error_eq. intros x. rewrite nth_error_firstn'.
  destruct (Nat.ltb_spec x (length h)); [now apply K|]. symmetry. now apply nth_error_None.
Qed.

(** ** once *)
Lemma once_in k l : In k (once l) <-> In k l.
Proof.
  induction l as [|x l IH]; cbn; [tauto|]. rewrite filter_In, IH. destruct (str_eqb_spec k x) as [->|N]; cbn; [tauto|]. split; intros [H|H]; auto; tauto.
Qed.
Lemma once_nodup l : NoDup (once l).
Proof.
  induction l as [|x l IH]; cbn; constructor.
  - rewrite filter_In. rewrite str_eqb_refl. intros [_ H]. discriminate.
  - now apply NoDup_filter.
Qed.
Lemma once_same l : NoDup l -> once l = l.
Proof.
  induction l as [|x l IH]; cbn; auto. intros N. inversion N as [|? ? Nx N']; subst. rewrite IH by auto. f_equal. clear -Nx.
  induction l as [|y l IH]; cbn; auto. destruct (str_eqb_spec y x) as [->|]; cbn; [destruct Nx; now left|]. f_equal. apply IH. intros H. apply Nx. now right.
Qed.
Lemma is_in_spec k l : is_in k l = true <-> In k l.
Proof.
  unfold is_in. rewrite existsb_exists. split; [intros (x & H & E)|intros H; exists k; split; auto using str_eqb_refl].
  destruct (str_eqb_spec k x); [now subst|discriminate].
Qed.

Section Top.
  Context (X : ext) (h : heap) (ss : list deed) (Rh : reachable X h).
  Context (K : ok_deeds ss (view h) (names_of (view h)) (lists_of (view h))).
  Let ns := snd (fst (spec_deeds ss (view h) (names_of (view h)) (lists_of (view h)))).
  Context (os os2 : list out) (h1 h2 : heap) (E1 : run_deeds ss h = Ok (os, h1)) (E2 : run_calls (own_calls ss) h = Ok (os2, h2)).
  Context (m n c : nat) (h' : heap) (Hm : has (w_map (view h2)) m) (E : clone n X KMap m h1 = Ok (GVal c, h')).

  Lemma reclone_sim : reachable X h2 /\ exists vs, rsim h1 h2 ns vs.
  Proof.
    destruct (handed_top X h ss Rh K) as (h1' & h2' & F1 & F2 & R & _ & S). rewrite E1 in F1. rewrite E2 in F2.
    injection F1 as _ <-. injection F2 as _ <-. split; [exact R|]. eexists. exact S.
  Qed.
  Lemma reclone_core : exists mo d, nth_error h2 m = Some (CMap mo) /\ proper (length h1) c h' d /\ dict_keys d = once (ns m)
    /\ forall k, In k (ns m) -> exists o, dict_get d k = Some o /\ entry h1 (MObj (m_tbl mo) (ns m) (m_vals mo)) h' k o.
  Proof.
    destruct reclone_sim as [R [vs S]]. pose proof (reachable_Inv _ _ R) as I. pose proof (view_impl _ I) as P.
    destruct (has_map _ _ _ P Hm) as (mo & Em & _). pose proof (r_map _ _ _ _ S _ _ Em) as H1. exists mo.
    destruct n as [|f]; [discriminate E|]. cbn [clone] in E. destruct (clone_fine X f) as [F V].
    destruct (map_body X _ F m _ h1 _ h' V H1 E) as (_ & _ & G). destruct (G c eq_refl) as (d & A & B & C). exists d. auto.
  Qed.
  Lemma reclone_names : map_GetKeys h' c = Ok (once (ns m)) /\ (forall k, map_HasKey h' c k = Ok (is_in k (ns m)))
    /\ exists a vs, map_Values h' c = Ok a /\ arr_GetValues h' a = Ok vs /\ length vs = length (once (ns m))
       /\ forall i k, nth_error (once (ns m)) i = Some k -> exists o, nth_error vs i = Some o /\ map_GetValue h' c k = Ok o.
  Proof.
    destruct reclone_core as (mo & d & _ & (mc & Hc & (Ek & Ev & D & T) & _) & A & _). rewrite <- A.
    unfold map_GetKeys, map_HasKey, map_Values, map_GetValue. rewrite (proj2 (rd_map_iff _ _ _) Hc). cbn [rbind]. rewrite Ek. split; auto. split.
    - intros k. unfold has_key. rewrite T. f_equal. change (dict_has d k = is_in k (ns m)).
      apply eq_true_iff_eq. rewrite dict_has_keys, is_in_spec. change (map fst d) with (dict_keys d). rewrite A. apply once_in.
    - exists (m_vals mc), (dict_values d). split; auto. split; [unfold arr_GetValues; now apply rd_arr_iff|].
      split; [unfold dict_values, dict_keys; now rewrite !map_length|]. intros i k Hi. unfold dict_keys in Hi. rewrite nth_error_map in Hi.
      destruct (nth_error d i) as [[k' o]|] eqn:Hd; [|discriminate]. cbn in Hi. injection Hi as ->. exists o.
      unfold dict_values. rewrite nth_error_map, Hd. split; auto. rewrite T. rewrite (dict_In_get d k o D) by (eapply nth_error_In; exact Hd). reflexivity.
  Qed.
  Lemma reclone_entries k : In k (ns m) -> exists v y, map_GetValue h' c k = Ok (Some v) /\ length h1 <= v /\ value_GetObject h' v = Ok y
    /\ match dict_get (map_at (view h2) m) k with
       | Some (Some v0) => exists x, w_val (view h2) v0 = Some x /\ copied (fun l => length h1 <= l) (w_var (view h2)) (variable h') x y
       | _ => y = INil
       end.
  Proof.
    intros Ik. destruct reclone_core as (mo & d & Em & (mc & Hc & (Ek & Ev & D & T) & _) & A & B).
    destruct (B k Ik) as (o & Ho & v & y & -> & Lv & Hy & En). exists v, y.
    unfold map_GetValue. rewrite (proj2 (rd_map_iff _ _ _) Hc). cbn [rbind]. rewrite T, Ho. split; auto. split; auto.
    split; [now apply rd_val_iff|]. cbn [m_tbl] in En.
    destruct reclone_sim as [R [vs S]]. pose proof (reachable_Inv _ _ R) as I. pose proof (view_impl _ I) as P.
    destruct (has_map _ _ _ P Hm) as (mo' & Em' & (_ & Ev2 & _ & G)). rewrite Em in Em'. injection Em' as <-. rewrite G in En.
    destruct (dict_get (map_at (view h2) m) k) as [[v0|]|] eqn:Dk; auto.
    assert (Ov : exists x, nth_error h2 v0 = Some (CVal x)).
    { pose proof (inv_arr _ I _ _ Ev2) as Fo. rewrite Forall_forall in Fo. apply dict_get_In in Dk.
      assert (Ii : In (Some v0) (dict_values (map_at (view h2) m))) by (change (Some v0) with (snd (k, Some v0)); now apply in_map).
      exact (Fo _ Ii). }
    destruct Ov as [x Hx]. exists x. split; [now apply (im_val _ _ P)|].
    assert (Hx1 : nth_error h1 v0 = Some (CVal x)) by (apply (rsim_other I S); auto; discriminate).
    specialize (En x Hx1). pose proof (inv_val _ I _ _ Hx) as Ok_.
    destruct x as [| |t [p|]| |[z|]| |[a|]| | | | | | | | | | | | |]; cbn in En |- *; auto.
    destruct En as (p' & -> & Lp & Q). cbn in Ok_. destruct Ok_ as (s & Hp & _). exists p', s. split; auto. split; auto. split; [now apply (im_var _ _ P)|].
    unfold variable. rewrite (proj2 (rd_ptr_iff _ _ _) (Q s (rsim_other I S _ _ Hp ltac:(discriminate) ltac:(discriminate)))). reflexivity.
  Qed.
End Top.

(** ** Every depth *)
Section Every.
  Context (X : ext) (h1 h2 : heap) (ns : names) (vs : lists) (I : Inv h2) (S : rsim h1 h2 ns vs).
  Let P := view_impl _ I.
  Let B := length h1.
  Lemma back_val l x : nth_error h1 l = Some (CVal x) -> nth_error h2 l = Some (CVal x).
  Proof.
    intros H. assert (L : l < length h2) by (rewrite <- (r_len _ _ _ _ S); now apply nth_error_lt in H).
    destruct (nth_error h2 l) as [[a|y|mo|xs]|] eqn:H2.
    - rewrite (rsim_other I S _ _ H2 ltac:(discriminate) ltac:(discriminate)) in H. discriminate.
    - rewrite (rsim_other I S _ _ H2 ltac:(discriminate) ltac:(discriminate)) in H. congruence.
    - rewrite (r_map _ _ _ _ S _ _ H2) in H. discriminate.
    - exfalso. assert (N : ~ owned h2 l).
      { intros (m & mo & Hm & Em). pose proof (r_vals _ _ _ _ S _ _ Hm) as V. rewrite Em in V. congruence. }
      rewrite (r_cell _ _ _ _ S l N) in H by congruence. congruence.
    - apply nth_error_None in H2. lia.
  Qed.
  Lemma back_ptr l x : nth_error h1 l = Some (CPtr x) -> nth_error h2 l = Some (CPtr x).
  Proof.
    intros H. assert (L : l < length h2) by (rewrite <- (r_len _ _ _ _ S); now apply nth_error_lt in H).
    destruct (nth_error h2 l) as [[a|y|mo|xs]|] eqn:H2.
    - rewrite (rsim_other I S _ _ H2 ltac:(discriminate) ltac:(discriminate)) in H. congruence.
    - rewrite (rsim_other I S _ _ H2 ltac:(discriminate) ltac:(discriminate)) in H. discriminate.
    - rewrite (r_map _ _ _ _ S _ _ H2) in H. discriminate.
    - exfalso. assert (N : ~ owned h2 l).
      { intros (m & mo & Hm & Em). pose proof (r_vals _ _ _ _ S _ _ Hm) as V. rewrite Em in V. congruence. }
      rewrite (r_cell _ _ _ _ S l N) in H by congruence. congruence.
    - apply nth_error_None in H2. lia.
  Qed.
  Lemma back_map l mo : nth_error h1 l = Some (CMap mo) -> exists mo2, nth_error h2 l = Some (CMap mo2) /\ m_tbl mo = m_tbl mo2 /\ m_keys mo = ns l.
  Proof.
    intros H. assert (L : l < length h2) by (rewrite <- (r_len _ _ _ _ S); now apply nth_error_lt in H).
    destruct (nth_error h2 l) as [[a|y|mo2|xs]|] eqn:H2.
    - rewrite (rsim_other I S _ _ H2 ltac:(discriminate) ltac:(discriminate)) in H. discriminate.
    - rewrite (rsim_other I S _ _ H2 ltac:(discriminate) ltac:(discriminate)) in H. discriminate.
    - rewrite (r_map _ _ _ _ S _ _ H2) in H. injection H as <-. eauto.
    - exfalso. assert (N : ~ owned h2 l).
      { intros (m & mo2 & Hm & Em). pose proof (r_vals _ _ _ _ S _ _ Hm) as V. rewrite Em in V. congruence. }
      rewrite (r_cell _ _ _ _ S l N) in H by congruence. congruence.
    - apply nth_error_None in H2. lia.
  Qed.
  Definition pub (a : nat) : Prop := ok_pub_arr h2 a.
  Lemma pub_arr a xs : pub a -> nth_error h1 a = Some (CArr xs) -> nth_error h2 a = Some (CArr xs).
  Proof.
    intros Pa H. destruct Pa as [[l Hl] N]. rewrite (r_cell _ _ _ _ S a) in H; [exact H| |congruence].
    exact N.
  Qed.
  Let new := fun l : nat => B <= l.
  Section Translate.
    Context (t : heap) (lo hi : nat) (Lo : B <= lo).
    Context (L L' : iface -> iface -> Prop) (H : forall x y, ok_iface h2 x -> L x y -> L' x y).
    Lemma tr_val v0 v : val_of h1 L t lo hi v0 v -> exists x y, w_val (view h2) v0 = Some x /\ new v /\ value_GetObject t v = Ok y /\ L' x y.
    Proof.
      intros (x & y & Hx & R & Hy & Q). apply back_val in Hx. exists x, y. split; [now apply (im_val _ _ P)|]. split; [unfold new; lia|].
      split; [now apply rd_val_iff|]. apply H; auto. apply (inv_val _ I _ _ Hx).
    Qed.
    Lemma tr_map z z' : map_of h1 L t lo hi z z' -> new z' /\ map_clone (view h2) ns t new L' z z'.
    Proof.
      intros (mo & mc & d & Hm & Hc & (Ek & Ev & D & T) & R1 & R2 & Kd & En). destruct (back_map _ _ Hm) as (mo2 & Hm2 & Et & Ens).
      destruct (inv_map _ I _ _ Hm2) as [d2 Hd2]. assert (W : w_map (view h2) z = Some d2) by (apply (im_map _ _ P); exists mo2; auto).
      destruct Hd2 as (_ & _ & _ & T2). rewrite Ens in *. split; [unfold new; lia|].
      unfold map_clone, map_GetKeys, map_HasKey, map_GetValue. rewrite (proj2 (rd_map_iff _ _ _) Hc). cbn [rbind]. rewrite Ek, Kd. split; auto. split.
      - intros k. unfold has_key. rewrite T. f_equal. change (dict_has d k = is_in k (ns z)).
        apply eq_true_iff_eq. rewrite dict_has_keys, is_in_spec. change (map fst d) with (dict_keys d). rewrite Kd. apply once_in.
      - intros k Ik. destruct (En k Ik) as (v & G & Q). rewrite Et, T2 in Q. unfold map_at. rewrite W. cbn [the].
        destruct (dict_get d2 k) as [[v0|]|].
        + destruct (tr_val _ _ Q) as (x & y & Wx & Nv & Oy & Lx). exists v, y. rewrite T, G. eauto 8.
        + destruct Q as [Q1 Q2]. exists v, INil. rewrite T, G. split; auto. split; [unfold new; lia|]. split; [now apply rd_val_iff|auto].
        + destruct Q as [Q1 Q2]. exists v, INil. rewrite T, G. split; auto. split; [unfold new; lia|]. split; [now apply rd_val_iff|auto].
    Qed.
    Lemma tr_arr a a' : pub a -> arr_of h1 L t lo hi a a' -> new a' /\ arr_clone (view h2) t new L' a a'.
    Proof.
      intros Pa (l & l' & Ha & Hc & R & F). apply pub_arr in Ha; auto. assert (W : w_arr (view h2) a = Some l) by (apply (im_arr _ _ P); split; [exact Ha|apply Pa]).
      split; [unfold new; lia|]. exists l'. split; [unfold arr_GetValues; now apply rd_arr_iff|]. unfold arr_at. rewrite W. cbn [the].
      clear Ha Hc W. induction F as [|o o' l l' (v0 & v & -> & -> & Q) F IH]; constructor; auto.
      destruct (tr_val _ _ Q) as (x & y & Wx & Nv & Oy & Lx). exists v0, x, v, y. auto 8.
    Qed.
  End Translate.
  Lemma tr_like t lo hi : B <= lo -> forall n x y, ok_iface h2 x -> like h1 n t lo hi x y -> same_to (view h2) ns t new n x y.
  Proof.
    intros Lo n. induction n as [|n IH]; intros x y Ox H; [exact Logic.I|].
    destruct x as [| |ty [p|]|z|[z|]|a|[a|]| | | | | | | | | | | | |]; cbn in *; auto.
    - destruct H as (p' & a & -> & R & Hp & Hp'). exists p', a. split; auto. split; [unfold new; lia|]. apply back_ptr in Hp. split; [now apply (im_var _ _ P)|].
      unfold variable. now rewrite (proj2 (rd_ptr_iff _ _ _) Hp').
    - destruct H as (z' & -> & Q). exists z'. split; auto. eapply tr_map; [exact Lo|exact IH|exact Q].
    - destruct H as (z' & -> & Q). exists z'. split; auto. eapply tr_map; [exact Lo|exact IH|exact Q].
    - destruct H as (z' & -> & Q). exists z'. split; auto. eapply tr_arr; [exact Lo|exact IH|exact Ox|exact Q].
    - destruct H as (z' & -> & Q). exists z'. split; auto. eapply tr_arr; [exact Lo|exact IH|exact Ox|exact Q].
  Qed.

  Lemma every_after n kd l c h' : l < B -> (kd = KArr -> pub l) -> clone n X kd l h1 = Ok (GVal c, h') -> after h1 h1 h' kd l c.
  Proof.
    assert (Lw : forall x, ok_iface h2 x -> lower h1 pub x).
    { assert (Q : forall q c0, nth_error h2 q = Some c0 -> q < length h1) by (intros q c0 E; rewrite (r_len _ _ _ _ S); now apply nth_error_lt in E).
      intros x Ox. destruct x as [| |ty [p|]|z|[z|]|a|[a|]| | | | | | | | | | | | |]; cbn in *; auto.
      - destruct Ox as (a & Hp & _). eauto.
      - destruct Ox as (mo & Hz). eauto.
      - destruct Ox as (mo & Hz). eauto.
      - split; [|exact Ox]. destruct Ox as [[q Hq] _]. eauto.
      - split; [|exact Ox]. destruct Ox as [[q Hq] _]. eauto. }
    intros Ll Pl E. refine (deep_clone h1 pub _ _ _ X n kd l h1 c h' _ Ll Pl E).
    - intros q x Hx. apply Lw. apply back_val in Hx. apply (inv_val _ I _ _ Hx).
    - intros q mo k v Hm T. destruct (back_map _ _ Hm) as (mo2 & Hm2 & Et & _). destruct (inv_map _ I _ _ Hm2) as [d2 (_ & V & _ & T2)].
      rewrite Et, T2 in T. pose proof (inv_arr _ I _ _ V) as Fo. rewrite Forall_forall in Fo. apply dict_get_In in T.
      assert (Ii : In (Some v) (dict_values d2)) by (change (Some v) with (snd (k, Some v)); now apply in_map).
      destruct (Fo _ Ii) as [j Hj]. fold B. unfold B. rewrite (r_len _ _ _ _ S). now apply nth_error_lt in Hj.
    - intros q xs v Pq Hq Iv. apply pub_arr in Hq; auto. pose proof (inv_arr _ I _ _ Hq) as Fo. rewrite Forall_forall in Fo.
      destruct (Fo _ Iv) as [j Hj]. unfold B. rewrite (r_len _ _ _ _ S). now apply nth_error_lt in Hj.
    - apply keeps_refl.
  Qed.
  Lemma every_depth n kd l c h' : clone n X kd l h1 = Ok (GVal c, h') ->
    match kd with
    | KMap => has (w_map (view h2)) l -> new c /\ forall d, map_clone (view h2) ns h' new (same_to (view h2) ns h' new d) l c
    | KArr => has (w_arr (view h2)) l -> new c /\ forall d, arr_clone (view h2) h' new (same_to (view h2) ns h' new d) l c
    | KVal => forall x, w_val (view h2) l = Some x -> new c /\ exists y, value_GetObject h' c = Ok y /\ forall d, same_to (view h2) ns h' new d x y
    end.
  Proof.
    intros E. assert (T : forall d x y, ok_iface h2 x -> alike h1 h' (length h1) (length h') x y -> same_to (view h2) ns h' new d x y).
    { intros d x y Ox Q. eapply tr_like; [apply le_n|exact Ox|apply Q]. }
    destruct kd.
    - intros x Wx. apply (im_val _ _ P) in Wx. assert (Ll : l < B) by (unfold B; rewrite (r_len _ _ _ _ S); now apply nth_error_lt in Wx).
      pose proof (every_after n KVal l c h' Ll ltac:(discriminate) E) as (x1 & y & Hx & R & Hy & Q). apply back_val in Hx. rewrite Wx in Hx. injection Hx as <-.
      split; [unfold new, B; lia|]. exists y. split; [now apply rd_val_iff|]. intros d. apply T; auto. apply (inv_val _ I _ _ Wx).
    - intros Hl. destruct (has_map _ _ _ P Hl) as (mo & Em & _). assert (Ll : l < B) by (unfold B; rewrite (r_len _ _ _ _ S); now apply nth_error_lt in Em).
      pose proof (every_after n KMap l c h' Ll ltac:(discriminate) E) as Q. cbn [after] in Q.
      assert (Z : forall d, new c /\ map_clone (view h2) ns h' new (same_to (view h2) ns h' new d) l c).
      { intros d. eapply tr_map; [|exact (T d)|exact Q]. apply le_n. }
      split; [apply (Z 0)|intros d; apply Z].
    - intros Hl. destruct (has_arr _ _ _ P Hl) as [Ea N]. assert (Ll : l < B) by (unfold B; rewrite (r_len _ _ _ _ S); now apply nth_error_lt in Ea).
      assert (Pl : pub l) by (split; eauto).
      pose proof (every_after n KArr l c h' Ll ltac:(intros; exact Pl) E) as Q. cbn [after] in Q.
      assert (Z : forall d, new c /\ arr_clone (view h2) h' new (same_to (view h2) ns h' new d) l c).
      { intros d. eapply tr_arr; [|exact (T d)|exact Pl|exact Q]. apply le_n. }
      split; [apply (Z 0)|intros d; apply Z].
  Qed.
End Every.
Lemma reclone_every X h ss : reachable X h -> ok_deeds ss (view h) (names_of (view h)) (lists_of (view h)) ->
  forall os os2 h1 h2, run_deeds ss h = Ok (os, h1) -> run_calls (own_calls ss) h = Ok (os2, h2) ->
  let w := view h2 in
  let ns := snd (fst (spec_deeds ss (view h) (names_of (view h)) (lists_of (view h)))) in
  let new := fun l => length h1 <= l in
  forall n kd l c h', clone n X kd l h1 = Ok (GVal c, h') ->
  match kd with
  | KMap => has (w_map w) l -> new c /\ forall d, map_clone w ns h' new (same_to w ns h' new d) l c
  | KArr => has (w_arr w) l -> new c /\ forall d, arr_clone w h' new (same_to w ns h' new d) l c
  | KVal => forall x, w_val w l = Some x -> new c /\ exists y, value_GetObject h' c = Ok y /\ forall d, same_to w ns h' new d x y
  end.
Proof.
  intros Rh K os os2 h1 h2 E1 E2 w ns new n kd l c h' E. destruct (reclone_sim X h ss Rh K os os2 h1 h2 E1 E2) as [R [vs S]].
  exact (every_depth X h1 h2 ns vs (reachable_Inv _ _ R) S n kd l c h' E).
Qed.
