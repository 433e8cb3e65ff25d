(** * Facts about the clone of a map that lists other names than it holds *)
From Coq Require Import Ascii String List NArith ZArith Bool Lia.
From Verif Require Import GoStr StrLemmas GoNum GoFloat Heap Common ValueModel ArrayModel MapModel JsonModel
  SpecDict DictLemmas SpecWorld SpecValues Inv World Reach ValuesFacts SpecRelabel RelabelModel RelabelFacts SpecReclone.
Import ListNotations.
Open Scope nat_scope.

(** ** Clone writes only to what it allocates: no invariant of the heap is needed *)
Definition keeps (b : nat) (h h' : heap) : Prop := length h <= length h' /\ forall x, x < b -> nth_error h' x = nth_error h x.
Lemma keeps_refl b h : keeps b h h.
Proof. split; auto. Qed.
Lemma keeps_trans b h1 h2 h3 : keeps b h1 h2 -> keeps b h2 h3 -> keeps b h1 h3.
Proof. intros [A B] [C D]. split; [lia|]. intros x L. rewrite D, B; auto. Qed.
Lemma keeps_le b b' h h' : b <= b' -> keeps b' h h' -> keeps b h h'.
Proof. intros L [A B]. split; auto. intros x Lx. apply B. lia. Qed.
Lemma keeps_alloc b h c : b <= length h -> keeps b h (h ++ [c]).
Proof. intros L. split; [rewrite app_length; lia|]. intros x Lx. rewrite nth_error_app1; auto. lia. Qed.
Lemma keeps_upd b h l c : b <= l -> keeps b h (upd h l c).
Proof.
  intros L. split; [now rewrite upd_length|]. intros x Lx. revert l x L Lx. induction h as [|y h IH] in b |- *; intros [|l] x L Lx; cbn; auto; [lia|].
  destruct x; cbn; auto. apply (IH (pred b)); lia.
Qed.

Definition hoare {A} (b : nat) (p : M A) (Q : A -> Prop) : Prop :=
  forall h a h', b <= length h -> p h = Ok (a, h') -> keeps b h h' /\ Q a.
Lemma h_bind {A B} b (p : M A) (q : A -> M B) P Q : hoare b p P -> (forall a, P a -> hoare b (q a) Q) -> hoare b (bind p q) Q.
Proof.
  intros H1 H2 h r h' L E. unfold bind in E. destruct (p h) as [[a h1]| | |] eqn:E1; try discriminate.
  destruct (H1 h a h1 L E1) as [K1 Pa]. destruct (H2 a Pa h1 r h') as [K2 Qr]; auto; [destruct K1; lia|].
  split; auto. eapply keeps_trans; eauto.
Qed.
Lemma h_ret {A} b (a : A) (Q : A -> Prop) : Q a -> hoare b (ret a) Q.
Proof. intros H h r h' _ E. injection E as <- <-. split; auto using keeps_refl. Qed.
Lemma h_lift {A} b (f : heap -> res A) (Q : A -> Prop) : (forall h a, f h = Ok a -> Q a) -> hoare b (mlift f) Q.
Proof. intros H h r h' _ E. unfold mlift in E. destruct (f h) eqn:F; try discriminate. injection E as <- <-. split; [apply keeps_refl|eauto]. Qed.
Lemma h_alloc b c : hoare b (alloc c) (fun l => b <= l).
Proof. intros h r h' L E. injection E as <- <-. split; [now apply keeps_alloc|exact L]. Qed.
Lemma h_panic {A} b (Q : A -> Prop) : hoare b mpanic Q.
Proof. intros h r h' _ E. discriminate. Qed.
Lemma h_stuck {A} b (Q : A -> Prop) : hoare b mstuck Q.
Proof. intros h r h' _ E. discriminate. Qed.
Lemma h_wr b l c : b <= l -> hoare b (wr l c) (fun _ => True).
Proof. intros L h r h' _ E. unfold wr in E. destruct (Nat.ltb l (length h)); [|discriminate]. injection E as <- <-. split; auto using keeps_upd. Qed.
Lemma h_append b a o : b <= a -> hoare b (arr_AppendValue a o) (fun _ => True).
Proof. intros L h r h' B E. unfold arr_AppendValue in E. destruct (rd_arr h a); try discriminate. exact (h_wr b a _ L h r h' B E). Qed.
Lemma h_valset b v i : b <= v -> hoare b (value_SetObject v i) (fun _ => True).
Proof. intros L h r h' B E. unfold value_SetObject in E. destruct (rd_val h v); try discriminate. exact (h_wr b v _ L h r h' B E). Qed.

(** A new object, or errors. *)
Definition got (b : nat) (r : gres loc) : Prop := match r with GVal c => b <= c | GErr e => e <> [] end.
Definition fine (rec : ckind -> loc -> M (gres loc)) : Prop := forall b k l, hoare b (rec k l) (got b).

Section Rec.
  Context (X : ext) (rec : ckind -> loc -> M (gres loc)) (F : fine rec).
  Lemma h_map_of b v : hoare b (clone_map_of rec X v) (got b).
  Proof.
    eapply h_bind with (P := fun r => match r with GErr e => e <> [] | _ => True end).
    - apply h_lift. intros h a E. unfold value_GetMap in E. destruct (rd_val h v) as [i| | |]; try discriminate. cbn [rbind] in E.
      destruct (iface_IsNil X i); [injection E as <-; exact Logic.I|]. destruct i; injection E as <-; auto; discriminate.
    - intros [[m|]|e] H; [apply F|apply h_ret; discriminate|now apply h_ret].
  Qed.
  Lemma h_arr_of b v : hoare b (clone_arr_of rec X v) (got b).
  Proof.
    eapply h_bind with (P := fun r => match r with GErr e => e <> [] | _ => True end).
    - apply h_lift. intros h a E. unfold value_GetArray in E. destruct (rd_val h v) as [i| | |]; try discriminate. cbn [rbind] in E.
      destruct (iface_IsNil X i); [injection E as <-; exact Logic.I|]. destruct i; injection E as <-; auto; discriminate.
    - intros [[m|]|e] H; [apply F|apply h_ret; discriminate|now apply h_ret].
  Qed.
  Lemma h_plain b i : hoare b (clone_plain X i) (fun _ => True).
  Proof.
    unfold clone_plain. destruct (common_GetType X i), i; try (now apply h_ret); try apply h_panic.
    all: repeat match goal with
      | |- hoare _ (ret _) _ => now apply h_ret
      | |- hoare _ mpanic _ => apply h_panic
      | |- hoare _ mstuck _ => apply h_stuck
      | |- hoare _ (bind (mlift _) _) _ => eapply h_bind; [now apply (h_lift _ _ (fun _ => True))|intros ? _]
      | |- hoare _ (bind (alloc _) _) _ => eapply h_bind; [apply h_alloc|intros ? _]
      | |- hoare _ (match ?x with _ => _ end) _ => destruct x
      end.
  Qed.
  Lemma h_value b v : hoare b (clone_value_body rec X v) (got b).
  Proof.
    eapply h_bind; [apply h_alloc|]. intros c Lc. eapply h_bind; [now apply (h_lift _ _ (fun _ => True))|]. intros g _.
    assert (S : forall i, hoare b (value_SetObject c i ;; ret (GVal c)) (got b)).
    { intros i. eapply h_bind; [now apply h_valset|]. intros _ _. now apply h_ret. }
    destruct (common_IsMap g); [|destruct (common_IsArray X g)].
    - eapply h_bind; [apply h_map_of|]. intros [z|e] H; [apply S|now apply h_ret].
    - eapply h_bind; [apply h_arr_of|]. intros [z|e] H; [apply S|now apply h_ret].
    - eapply h_bind; [now apply (h_lift _ _ (fun _ => True))|]. intros i _. eapply h_bind; [apply h_plain|]. intros [j|] _; [apply S|apply h_ret; discriminate].
  Qed.
  Lemma h_elem b c o : b <= c -> hoare b (clone_elem rec X c o) (fun _ => True).
  Proof.
    intros L. destruct o as [v|]; [|apply h_panic]. cbn [clone_elem]. eapply h_bind; [now apply (h_lift _ _ (fun _ => True))|]. intros g _.
    assert (S : forall i, hoare b (arr_AppendObject c i ;; ret (@nil err)) (fun _ => True)).
    { intros i. eapply h_bind with (P := fun _ => True); [|intros; now apply h_ret]. eapply h_bind; [apply h_alloc|]. intros z _. now apply h_append. }
    destruct (common_IsMap g); [|destruct (common_IsArray X g)].
    - eapply h_bind; [apply h_map_of|]. intros [z|e] H; [apply S|now apply h_ret].
    - eapply h_bind; [apply h_arr_of|]. intros [z|e] H; [apply S|now apply h_ret].
    - eapply h_bind; [apply F|]. intros [z|e] H; [|now apply h_ret]. eapply h_bind; [now apply h_append|]. intros; now apply h_ret.
  Qed.
  Lemma h_elems b c l : b <= c -> hoare b (clone_elems rec X c l) (fun _ => True).
  Proof.
    intros L. induction l as [|o l IH]; [now apply h_ret|]. cbn [clone_elems]. eapply h_bind; [now apply h_elem|]. intros e _.
    eapply h_bind; [apply IH|]. intros e' _. now apply h_ret.
  Qed.
  Lemma h_arr b a : hoare b (clone_arr_body rec X a) (got b).
  Proof.
    eapply h_bind; [apply h_alloc|]. intros c Lc. eapply h_bind; [now apply (h_lift _ _ (fun _ => True))|]. intros l _.
    eapply h_bind; [now apply h_elems|]. intros [|e es] _; apply h_ret; [exact Lc|discriminate].
  Qed.

  (** ** The clone of a map *)
  (** [c] is a map made after [b] that holds, lists and tells the values of [d]. *)
  Definition proper (b c : nat) (h : heap) (d : dict (option nat)) : Prop :=
    exists mo, nth_error h c = Some (CMap mo) /\ map_holds h mo d /\ b <= c /\ b <= m_vals mo.
  Definition plain (c : cell) : Prop := match c with CVal _ | CPtr _ => True | _ => False end.
  Definition keepv (h h' : heap) : Prop := forall l c, plain c -> nth_error h l = Some c -> nth_error h' l = Some c.
  Lemma keepv_trans h1 h2 h3 : keepv h1 h2 -> keepv h2 h3 -> keepv h1 h3.
  Proof. intros A B l c P H. auto. Qed.
  Lemma keepv_keeps h h' : keeps (length h) h h' -> keepv h h'.
  Proof. intros [_ K] l c _ H. rewrite K; auto. now apply nth_error_lt in H. Qed.
  Lemma proper_keeps b c h h' d : keeps (length h) h h' -> proper b c h d -> proper b c h' d.
  Proof.
    intros [_ K] (mo & Hm & (A & V & D) & L). exists mo. rewrite (K c) by (now apply nth_error_lt in Hm). split; auto.
    split; auto. split; auto. rewrite K; auto. now apply nth_error_lt in V.
  Qed.
  Lemma proper_set b c h d k o u h' : proper b c h d -> map_setInternal c k o h = Ok (u, h') ->
    keeps b h h' /\ keepv h h' /\ proper b c h' (dict_set d k o).
  Proof.
    intros (mo & Hm & (Ek & V & D & T) & Lc & Lv) E. rewrite (set_map_run h c mo (m_vals mo) (dict_values d) k o Hm eq_refl V d T) in E.
    injection E as _ <-. set (h1 := upd h _ _).
    assert (Ev : values_set d k o (m_keys mo) (dict_values d) = dict_values (dict_set d k o)
              /\ names_set d k (m_keys mo) = dict_keys (dict_set d k o)).
    { rewrite Ek. unfold values_set, names_set, is_new. unfold dict_keys at 2 6. rewrite dict_keys_set. destruct (dict_has d k) eqn:Hk; cbn [negb orb].
      - destruct (dict_keys d) as [|x t] eqn:Q; [unfold dict_has in Hk; destruct d; [discriminate|discriminate]|]. rewrite <- Q, <- find_position.
        pose proof (find_index_dict d k) as FI. unfold dict_keys. destruct (find_index k (map fst d)); [|congruence].
        destruct FI as (_ & _ & Hu & _). split; [|reflexivity]. unfold dict_values. now rewrite Hu, upd_list_set.
      - split; [|reflexivity]. unfold dict_values. rewrite dict_values_set_notin; auto. unfold dict_has in Hk. destruct (dict_get d k); congruence. }
    destruct Ev as [Ev En]. unfold h1. rewrite Ev, En. assert (Ne : m_vals mo <> c) by (intros Q; rewrite Q in V; congruence).
    pose proof (nth_error_lt _ _ _ Hm) as L1. pose proof (nth_error_lt _ _ _ V) as L2.
    split; [eapply keeps_trans; apply keeps_upd; auto|]. split.
    - intros l x Px Hx. rewrite !nth_error_upd by (rewrite ?upd_length; auto). destruct (Nat.eqb_spec c l) as [->|]; [rewrite Hm in Hx; injection Hx as <-; destruct Px|].
      destruct (Nat.eqb_spec (m_vals mo) l) as [<-|]; [rewrite V in Hx; injection Hx as <-; destruct Px|exact Hx].
    - eexists. split; [rewrite nth_error_upd by (now rewrite upd_length); rewrite Nat.eqb_refl; reflexivity|]. cbn [m_vals]. split; [|auto].
      split; [reflexivity|]. cbn [m_vals m_tbl]. split.
      + rewrite nth_error_upd by (now rewrite upd_length). destruct (Nat.eqb_spec c (m_vals mo)); [congruence|]. rewrite nth_error_upd by auto. now rewrite Nat.eqb_refl.
      + split; [now apply dict_ok_set|]. intros k2. now rewrite tbl_get_put, dict_get_set, T.
  Qed.

  (** What a copy [y] in [h'] of [x] in [h] is. *)
  Definition copied0 (b : nat) (h h' : heap) (x y : iface) : Prop :=
    match x with
    | INil => y = INil
    | IScal s => y = IScal s
    | IPtr t (Some p) => exists p', y = IPtr t (Some p') /\ b <= p' /\ forall s, nth_error h p = Some (CPtr s) -> nth_error h' p' = Some (CPtr s)
    | IMap _ | IPMap (Some _) => exists z, y = IPMap (Some z) /\ b <= z
    | IArr _ | IPArr (Some _) => exists z, y = IPArr (Some z) /\ b <= z
    | _ => True
    end.
  Lemma copied_le b b' h0 h h' h'' x y : b <= b' -> keepv h0 h -> keepv h' h'' -> copied0 b' h h' x y -> copied0 b h0 h'' x y.
  Proof.
    intros L K0 K H. destruct x as [| |t [p|]| |[m|]| |[a|]| | | | | | | | | | | | |]; cbn in *; auto.
    - destruct H as (p' & E & Lp & V). exists p'. split; auto. split; [lia|]. intros s Hs. apply K; [exact Logic.I|]. apply V. now apply K0.
    - destruct H as (z & E & Lz). exists z. split; auto. lia.
    - destruct H as (z & E & Lz). exists z. split; auto. lia.
    - destruct H as (z & E & Lz). exists z. split; auto. lia.
    - destruct H as (z & E & Lz). exists z. split; auto. lia.
  Qed.
  Definition values_fine : Prop := forall v i h w h', nth_error h v = Some (CVal i) -> rec KVal v h = Ok (GVal w, h') ->
    exists j, nth_error h' w = Some (CVal j) /\ copied0 (length h) h h' i j.
  Lemma body_value v i h w h' : nth_error h v = Some (CVal i) -> clone_value_body rec X v h = Ok (GVal w, h') ->
    exists j, nth_error h' w = Some (CVal j) /\ copied0 (length h) h h' i j.
  Proof.
    intros Hv E. pose proof (nth_error_lt _ _ _ Hv) as Lv.
    unfold clone_value_body in E. unfold bind at 1, new_value, alloc in E.
    set (h1 := h ++ [CVal INil]) in *. assert (Hv1 : nth_error h1 v = Some (CVal i)) by (now apply nth_error_alloc_old).
    assert (R : rd_val h1 v = Ok i) by (now apply rd_val_iff). assert (L1 : length h1 = S (length h)) by (unfold h1; rewrite app_length; cbn; lia).
    unfold bind at 1, mlift, value_GetType in E. rewrite R in E. cbn [rbind] in E.
    assert (S : forall j h2, keeps (length h1) h1 h2 -> (value_SetObject (length h) j ;; ret (GVal (length h))) h2 = Ok (GVal w, h') ->
      nth_error h' w = Some (CVal j) /\ keepv h1 h2 /\ w = length h /\ (forall l x, l <> length h -> nth_error h2 l = Some x -> nth_error h' l = Some x)).
    { intros j h2 K2 E2. unfold bind, value_SetObject in E2.
      assert (Hc : nth_error h2 (length h) = Some (CVal INil)) by (rewrite (proj2 K2) by lia; apply nth_error_alloc_new).
      rewrite (proj2 (rd_val_iff _ _ _) Hc) in E2. rewrite wr_ok in E2 by (now apply nth_error_lt in Hc). injection E2 as <- <-.
      pose proof (nth_error_lt _ _ _ Hc). split; [rewrite nth_error_upd by auto; now rewrite Nat.eqb_refl|]. split; [now apply keepv_keeps|]. split; auto.
      intros l x N Hx. rewrite nth_error_upd by auto. destruct (Nat.eqb_spec (length h) l); congruence. }
    destruct (common_IsMap (common_GetType X i)) eqn:Im.
    { unfold bind at 1 in E. destruct (clone_map_of rec X v h1) as [[[z|e] h2]| | |] eqn:Em; try discriminate.
      destruct (h_map_of (length h1) v h1 _ _ (le_n _) Em) as [K2 G]. cbn in G. apply S in E as (E & _); auto. eexists. split; [exact E|].
      unfold common_GetType in Im. destruct i as [| |t [p|]| |[m|]| |[a|]| | | | | | | | | | | | |]; cbn in Im; try (destruct (x_typed_nil X)); try discriminate; cbn; auto; exists z; split; auto; lia. }
    destruct (common_IsArray X (common_GetType X i)) eqn:Ia.
    { unfold bind at 1 in E. destruct (clone_arr_of rec X v h1) as [[[z|e] h2]| | |] eqn:Em; try discriminate.
      destruct (h_arr_of (length h1) v h1 _ _ (le_n _) Em) as [K2 G]. cbn in G. apply S in E as (E & _); auto. eexists. split; [exact E|].
      unfold common_GetType in Ia. destruct i as [| |t [p|]| |[m|]| |[a|]| | | | | | | | | | | | |]; cbn in Ia, Im; try (destruct (x_typed_nil X)); try discriminate; cbn; auto; exists z; split; auto; lia. }
    unfold bind at 1, mlift, value_GetObject in E. rewrite R in E. cbn [rbind] in E. unfold bind at 1 in E.
    destruct (clone_plain X i h1) as [[[j|] h2]| | |] eqn:Ep; try discriminate.
    destruct (h_plain (length h1) i h1 _ _ (le_n _) Ep) as [K2 _]. pose proof (S j h2 K2 E) as (Ej & _ & -> & Ko). exists j. split; [exact Ej|].
    destruct i as [| |t [p|]| |[m|]| |[a|]| | | | | | | | | | | | |]; try exact Logic.I; cbn in Im, Ia; try discriminate.
    - unfold clone_plain in Ep. unfold common_GetType in Ep. cbn [common_IsNil static_type] in Ep. destruct (true && x_typed_nil X); injection Ep as <- _; reflexivity.
    - unfold clone_plain, common_GetType in Ep. cbn [common_IsNil static_type andb] in Ep. injection Ep as <- _. reflexivity.
    - unfold clone_plain, common_GetType in Ep. cbn [common_IsNil static_type andb] in Ep. unfold bind at 1, mlift in Ep.
      destruct (deref h1 (IPtr t (Some p))) as [[s|]| | |] eqn:De; try discriminate. cbn [rbind] in Ep. unfold bind, alloc in Ep. injection Ep as <- <-.
      exists (length h1). split; auto. split; [lia|]. intros s' Hs.
      cbn [deref] in De. assert (Hp : rd_ptr h1 p = Ok s') by (apply rd_ptr_iff; now apply nth_error_alloc_old). rewrite Hp in De. cbn [rbind] in De.
      destruct (stype_eqb _ _); [|discriminate]. injection De as <-. apply Ko; [lia|apply nth_error_alloc_new].
  Qed.

  Section Loop.
    Context (V : values_fine) (h0 : heap) (m c : nat) (mo0 : mobj) (Hm : nth_error h0 m = Some (CMap mo0)).
    Let b := length h0.
    (** What the clone holds under [k], a name that the original lists. *)
    Definition entry (h : heap) (k : str) (o : option nat) : Prop := exists v j, o = Some v /\ b <= v /\ nth_error h v = Some (CVal j)
      /\ match tbl_get (m_tbl mo0) k with
         | Some (Some v0) => forall i, nth_error h0 v0 = Some (CVal i) -> copied0 b h0 h i j
         | _ => j = INil
         end.
    Lemma entry_keepv h h' k o : keepv h h' -> entry h k o -> entry h' k o.
    Proof.
      intros K (v & j & E & L & Hj & H). exists v, j. split; auto. split; auto. split; [now apply K|].
      destruct (tbl_get (m_tbl mo0) k) as [[v0|]|]; auto. intros i Hi. eapply copied_le; [apply le_n|intros ? ? ? Q; exact Q|exact K|now apply H].
    Qed.
    Lemma set_object h d k i u h' : b <= length h -> proper b c h d -> map_SetObject c k i h = Ok (u, h') ->
      exists v, b <= v /\ nth_error h' v = Some (CVal i) /\ keeps b h h' /\ keepv h h' /\ proper b c h' (dict_set d k (Some v)).
    Proof.
      intros L P E. unfold map_SetObject, bind, new_value, alloc in E. exists (length h). split; auto.
      assert (K1 : keeps (length h) h (h ++ [CVal i])) by (now apply keeps_alloc).
      pose proof (proper_set b c _ d k _ _ _ (proper_keeps _ _ _ _ _ K1 P) E) as (K2 & K3 & P').
      split; [apply K3; [exact Logic.I|apply nth_error_alloc_new]|].
      split; [eapply keeps_trans; [eapply keeps_le; [exact L|exact K1]|exact K2]|]. split; auto. eapply keepv_trans; [apply keepv_keeps; exact K1|exact K3].
    Qed.
    Lemma key_step h d k e h' : keeps b h0 h -> proper b c h d -> clone_key rec X m c k h = Ok (e, h') ->
      keeps b h h' /\ keepv h h' /\ exists d', proper b c h' d' /\ (e = [] -> exists o, d' = dict_set d k o /\ entry h' k o).
    Proof.
      intros K0 P E. assert (L : b <= length h) by (apply K0). assert (Lm : m < b) by (now apply nth_error_lt in Hm).
      assert (Hm1 : rd_map h m = Ok mo0) by (apply rd_map_iff; now rewrite (proj2 K0)).
      assert (KV : keepv h0 h).
      { intros l x _ Hx. rewrite (proj2 K0); auto. now apply nth_error_lt in Hx. }
      unfold clone_key in E. unfold bind at 1, mlift at 1 in E. destruct (map_is common_IsMap X h m k) as [im| | |] eqn:Em; try discriminate. cbn [rbind] in E.
      unfold bind at 1, mlift at 1 in E. destruct (map_is (common_IsArray X) X h m k) as [ia| | |] eqn:Ea; try discriminate. cbn [rbind] in E.
      unfold bind at 1, mlift at 1 in E. unfold map_GetValue at 1 in E. rewrite Hm1 in E. cbn [rbind] in E.
      destruct (match tbl_get (m_tbl mo0) k with Some o => o | None => None end) as [v|] eqn:Eo.
      2:{ assert (E' : (map_SetObject c k INil ;; ret (@nil err)) h = Ok (e, h')) by (destruct im, ia; exact E).
          unfold bind in E'. destruct (map_SetObject c k INil h) as [[u h2]| | |] eqn:Es; try discriminate. injection E' as <- <-.
          destruct (set_object _ _ _ _ _ _ L P Es) as (v & Lv & Hv & K1 & K2 & P'). split; auto. split; auto. exists (dict_set d k (Some v)). split; auto.
          intros _. exists (Some v). split; auto. exists v, INil. split; auto. split; auto. split; auto. destruct (tbl_get (m_tbl mo0) k) as [[?|]|]; auto; discriminate. }
      assert (T : tbl_get (m_tbl mo0) k = Some (Some v)) by (destruct (tbl_get (m_tbl mo0) k) as [[?|]|]; congruence).
      assert (Is : forall p bb, map_is p X h m k = Ok bb -> forall i, nth_error h v = Some (CVal i) -> bb = negb (common_IsNil i) && p (common_GetType X i)).
      { intros p bb Q i Hi. unfold map_is, map_via, map_IsNull, map_GetValue in Q. rewrite Hm1 in Q. cbn [rbind] in Q. rewrite T in Q.
        rewrite (proj2 (rd_val_iff _ _ _) Hi) in Q. cbn [rbind] in Q. destruct (common_IsNil i); cbn; [now injection Q|].
        unfold value_is, value_GetType in Q. rewrite (proj2 (rd_val_iff _ _ _) Hi) in Q. cbn [rbind] in Q. now injection Q. }
      assert (Err : forall (e : list err) h2, Ok (e, h2) = Ok (e, h') -> e <> [] -> keeps (length h) h h2 ->
        keeps b h h' /\ keepv h h' /\ exists d', proper b c h' d' /\ (e = [] -> exists o, d' = dict_set d k o /\ entry h' k o)).
      { intros e0 h2 [= <-] N K1. split; [eapply keeps_le; eauto|]. split; [now apply keepv_keeps|]. exists d. split; [eapply proper_keeps; eauto|]. intros; contradiction. }
      assert (Obj : forall i2 h2, keeps (length h) h h2 -> (map_SetObject c k i2 ;; ret (@nil err)) h2 = Ok (e, h') ->
        (forall i, nth_error h v = Some (CVal i) -> copied0 b h0 h2 i i2) ->
        keeps b h h' /\ keepv h h' /\ exists d', proper b c h' d' /\ (e = [] -> exists o, d' = dict_set d k o /\ entry h' k o)).
      { intros i2 h2 K1 E2 Hc. unfold bind in E2. destruct (map_SetObject c k i2 h2) as [[u h3]| | |] eqn:Es; try discriminate. injection E2 as <- <-.
        assert (L2 : b <= length h2) by (destruct K1; lia).
        destruct (set_object _ _ _ _ _ _ L2 (proper_keeps _ _ _ _ _ K1 P) Es) as (v' & Lv & Hv & K2 & K3 & P').
        split; [eapply keeps_trans; [eapply keeps_le; [exact L|exact K1]|exact K2]|]. split; [eapply keepv_trans; [apply keepv_keeps; exact K1|exact K3]|].
        exists (dict_set d k (Some v')). split; auto. intros _. exists (Some v'). split; auto. exists v', i2. split; auto. split; auto. split; auto. rewrite T.
        intros i Hi. eapply copied_le; [apply le_n|intros ? ? ? Q; exact Q|exact K3|]. apply Hc. apply KV; [exact Logic.I|exact Hi]. }
      destruct im; [|destruct ia].
      - unfold bind at 1 in E. destruct (clone_map_of rec X v h) as [[r h2]| | |] eqn:Ec; try discriminate.
        destruct (h_map_of (length h) v h _ _ (le_n _) Ec) as [K1 G]. destruct r as [z|e1]; cbn in G; [|injection E as <- <-; now apply Err with h2].
        apply (Obj _ _ K1 E). intros i Hi. apply Is with (i := i) in Em; auto. symmetry in Em. apply andb_prop in Em as [_ Em].
        unfold common_GetType in Em. destruct i as [| |t [p|]| |[q|]| |[a|]| | | | | | | | | | | | |]; cbn in Em; try (destruct (x_typed_nil X)); try discriminate; cbn; auto; exists z; split; auto; lia.
      - unfold bind at 1 in E. destruct (clone_arr_of rec X v h) as [[r h2]| | |] eqn:Ec; try discriminate.
        destruct (h_arr_of (length h) v h _ _ (le_n _) Ec) as [K1 G]. destruct r as [z|e1]; cbn in G; [|injection E as <- <-; now apply Err with h2].
        apply (Obj _ _ K1 E). intros i Hi. apply Is with (i := i) in Ea; auto. symmetry in Ea. apply andb_prop in Ea as [_ Ea].
        unfold common_GetType in Ea. destruct i as [| |t [p|]| |[q|]| |[a|]| | | | | | | | | | | | |]; cbn in Ea; try (destruct (x_typed_nil X)); try discriminate; cbn; auto; exists z; split; auto; lia.
      - unfold bind at 1 in E. destruct (rec KVal v h) as [[r h2]| | |] eqn:Ec; try discriminate.
        destruct (F (length h) KVal v h _ _ (le_n _) Ec) as [K1 G]. destruct r as [z|e1]; cbn in G; [|injection E as <- <-; now apply Err with h2].
        unfold bind, map_SetValue in E. destruct (map_setInternal c k (Some z) h2) as [[u h3]| | |] eqn:Es; try discriminate. injection E as <- <-.
        pose proof (proper_set b c _ d k _ _ _ (proper_keeps _ _ _ _ _ K1 P) Es) as (K2 & K3 & P').
        split; [eapply keeps_trans; [eapply keeps_le; [exact L|exact K1]|exact K2]|]. split; [eapply keepv_trans; [apply keepv_keeps; exact K1|exact K3]|].
        exists (dict_set d k (Some z)). split; auto. intros _. exists (Some z). split; auto.
        destruct (nth_error h v) as [cv|] eqn:Hv.
        2:{ exfalso. unfold map_is, map_via, map_IsNull in Em. rewrite Hm1 in Em. cbn [rbind] in Em. rewrite T in Em. unfold rd_val in Em. rewrite Hv in Em. discriminate. }
        destruct cv as [s|i|mm|ll].
        1,3,4: exfalso; unfold map_is, map_via, map_IsNull in Em; rewrite Hm1 in Em; cbn [rbind] in Em; rewrite T in Em; unfold rd_val in Em; rewrite Hv in Em; discriminate.
        destruct (V v i h z h2 Hv Ec) as (j & Hj & Cj). exists z, j. split; auto. split; [lia|]. split; [apply K3; [exact Logic.I|exact Hj]|]. rewrite T.
        intros i' Hi. apply KV in Hi; [|exact Logic.I]. rewrite Hv in Hi. injection Hi as ->.
        eapply copied_le; [exact L|exact KV|exact K3|exact Cj].
    Qed.

    Lemma keys_loop ks : forall h d e h', keeps b h0 h -> proper b c h d -> clone_keys rec X m c ks h = Ok (e, h') ->
      keeps b h h' /\ keepv h h' /\ exists d', proper b c h' d'
        /\ (e = [] -> dict_keys d' = dict_keys d ++ filter (fun x => negb (dict_has d x)) (once ks)
             /\ (forall k, In k ks -> exists o, dict_get d' k = Some o /\ entry h' k o)
             /\ (forall k, ~ In k ks -> dict_get d' k = dict_get d k)).
    Proof.
      induction ks as [|k ks IH]; intros h d e h' K0 P E.
      - cbn in E. injection E as <- <-. split; [apply keeps_refl|]. split; [intros ? ? ? Q; exact Q|]. exists d. split; auto. intros _. cbn. rewrite app_nil_r.
        split; auto. split; auto. intros ? [].
      - cbn [clone_keys] in E. unfold bind in E. destruct (clone_key rec X m c k h) as [[e1 h1]| | |] eqn:E1; try discriminate.
        destruct (clone_keys rec X m c ks h1) as [[e2 h2]| | |] eqn:E2; try discriminate. injection E as <- <-.
        destruct (key_step _ _ _ _ _ K0 P E1) as (K1 & V1 & d1 & P1 & G1).
        destruct (IH h1 d1 e2 h2) as (K2 & V2 & d2 & P2 & G2); [eapply keeps_trans; eauto|exact P1|exact E2|].
        split; [eapply keeps_trans; eauto|]. split; [eapply keepv_trans; eauto|]. exists d2. split; auto. intros Q. apply app_eq_nil in Q as [-> ->].
        destruct (G1 eq_refl) as (o & -> & En). destruct (G2 eq_refl) as (A & B & C). split; [|split].
        + rewrite A. unfold dict_keys. rewrite dict_keys_set. cbn [once filter].
          assert (Hh : forall x, dict_has (dict_set d k o) x = (str_eqb k x || dict_has d x)).
          { intros x. unfold dict_has. rewrite dict_get_set. now destruct (str_eqb k x). }
          assert (Fl : filter (fun x => negb (dict_has (dict_set d k o) x)) (once ks)
                     = filter (fun x => negb (dict_has d x)) (filter (fun x => negb (str_eqb x k)) (once ks))).
          { clear -Hh. induction (once ks) as [|y l IHl]; auto. cbn [filter]. rewrite Hh, IHl.
            assert (Sy : str_eqb k y = str_eqb y k) by (destruct (str_eqb_spec k y), (str_eqb_spec y k); congruence). rewrite Sy.
            destruct (str_eqb y k); reflexivity. }
          rewrite Fl. destruct (dict_has d k); cbn [negb]; auto. now rewrite <- app_assoc.
        + intros x Ix. destruct (in_dec (list_eq_dec ascii_dec) x ks) as [Iy|N]; [now apply B|]. destruct Ix as [->|Iy]; [|contradiction].
          exists o. rewrite C by auto. rewrite dict_get_set, str_eqb_refl. split; auto. eapply entry_keepv; eauto.
        + intros x N. cbn in N. rewrite C by tauto. rewrite dict_get_set. destruct (str_eqb_spec k x); [tauto|reflexivity].
    Qed.
    End Loop.

  Lemma map_body m mo0 h0 r h' : values_fine -> nth_error h0 m = Some (CMap mo0) -> clone_map_body rec X m h0 = Ok (r, h') ->
    keeps (length h0) h0 h' /\ got (length h0) r
    /\ forall c, r = GVal c -> exists d, proper (length h0) c h' d /\ dict_keys d = once (m_keys mo0)
        /\ forall k, In k (m_keys mo0) -> exists o, dict_get d k = Some o /\ entry h0 mo0 h' k o.
  Proof.
    intros V Hm E. unfold clone_map_body, new_map, new_array in E. unfold bind at 1 2, alloc in E.
    set (h1 := (h0 ++ [CArr []]) ++ [CMap (MObj [] [] (length h0))]) in *.
    assert (K0 : keeps (length h0) h0 h1).
    { eapply keeps_trans; [now apply keeps_alloc|]. apply keeps_alloc. rewrite app_length. lia. }
    pose proof (nth_error_lt _ _ _ Hm) as Lm.
    set (c := length (h0 ++ [CArr []])) in *. assert (Lc : c = S (length h0)) by (unfold c; rewrite app_length; cbn; lia).
    assert (P : proper (length h0) c h1 []).
    { eexists. split; [unfold h1, c; apply nth_error_alloc_new|]. cbn [m_vals]. split; [|split; lia]. split; [reflexivity|]. cbn [m_vals m_tbl].
      split; [apply nth_error_alloc_old, nth_error_alloc_new|]. split; [constructor|reflexivity]. }
    unfold bind at 1, mlift, map_GetKeys in E. assert (R : rd_map h1 m = Ok mo0) by (apply rd_map_iff; now rewrite (proj2 K0)).
    rewrite R in E. cbn [rbind] in E. unfold bind in E. destruct (clone_keys rec X m c (m_keys mo0) h1) as [[e h2]| | |] eqn:Ek; try discriminate.
    destruct (keys_loop V h0 m c mo0 Hm (m_keys mo0) h1 [] e h2 K0 P Ek) as (K1 & _ & d & P2 & G).
    injection E as <- <-. split; [eapply keeps_trans; eauto|]. destruct e as [|e0 e].
    - split; [cbn; lia|]. intros c' [= <-]. exists d. split; auto. destruct (G eq_refl) as (A & B & _). split; auto. rewrite A. cbn.
      clear. induction (once (m_keys mo0)) as [|x l IH]; cbn; congruence.
    - split; [discriminate|]. intros c' Q. discriminate.
  Qed.
End Rec.

Lemma fine_exact rec : (forall k l h r h', rec k l h = Ok (r, h') -> keeps (length h) h h' /\ got (length h) r) -> fine rec.
Proof.
  intros H b k l h r h' L E. destruct (H _ _ _ _ _ E) as [K G]. split; [eapply keeps_le; eauto|]. destruct r; cbn in *; auto. lia.
Qed.
Lemma clone_fine X f : fine (clone f X) /\ values_fine (clone f X).
Proof.
  induction f as [|f [F V]].
  - split; [intros b k l h r h' _ E; discriminate|intros v i h w h' _ E; discriminate].
  - split.
    + apply fine_exact. intros k l h r h' E. destruct k; cbn [clone] in E.
      * exact (h_value X _ F (length h) l h r h' (le_n _) E).
      * destruct (rd_map h l) as [mo| | |] eqn:R0.
        { apply rd_map_iff in R0. destruct (map_body X _ F l mo h r h' V R0 E) as (A & B & _). auto. }
        all: unfold clone_map_body, new_map, new_array in E; unfold bind at 1 2, alloc in E; unfold bind at 1, mlift, map_GetKeys in E;
          destruct (rd_map _ l) as [mo| | |] eqn:R in E; try discriminate; cbn [rbind] in E; apply rd_map_iff in R;
          rewrite nth_error_alloc in R; destruct (Nat.ltb_spec l (length (h ++ [CArr []]))) as [L|L];
          [exfalso; rewrite nth_error_alloc in R; destruct (Nat.ltb_spec l (length h)) as [L'|L'];
             [apply rd_map_iff in R; congruence|destruct (Nat.eqb l (length h)); discriminate]|];
          destruct (Nat.eqb l (length (h ++ [CArr []]))); try discriminate; injection R as <-; cbn in E; unfold bind, ret in E; injection E as <- <-;
          (split; [eapply keeps_trans; [now apply keeps_alloc|apply keeps_alloc; rewrite app_length; lia]|cbn; rewrite app_length; lia]).
      * exact (h_arr X _ F (length h) l h r h' (le_n _) E).
    + intros v i h w h' Hv E. cbn [clone] in E. eapply body_value; eauto.
Qed.
