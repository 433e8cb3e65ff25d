(** * The clone of a map that lists other names than it holds, at every depth *)
From Coq Require Import Ascii String List NArith ZArith Bool Lia.
From Verif Require Import GoStr StrLemmas GoNum GoFloat Heap Common ValueModel ArrayModel MapModel JsonModel
  SpecDict DictLemmas SpecWorld SpecValues Inv World Reach ValuesFacts SpecRelabel RelabelModel RelabelFacts SpecReclone RecloneFacts.
Import ListNotations.
Open Scope nat_scope.

Section Deep.
  Context (s : heap).
  Let B := length s.

  (** [y] in [t], with all its objects between [lo] and [hi], is a copy of [x] in [s]; [L] is for what is nested. *)
  Definition val_of (L : iface -> iface -> Prop) (t : heap) (lo hi v0 v : nat) : Prop :=
    exists x y, nth_error s v0 = Some (CVal x) /\ lo <= v < hi /\ nth_error t v = Some (CVal y) /\ L x y.
  Definition map_of (L : iface -> iface -> Prop) (t : heap) (lo hi z z' : nat) : Prop :=
    exists mo mc d, nth_error s z = Some (CMap mo) /\ nth_error t z' = Some (CMap mc) /\ map_holds t mc d
      /\ lo <= z' < hi /\ lo <= m_vals mc < hi /\ dict_keys d = once (m_keys mo)
      /\ forall k, In k (m_keys mo) -> exists v, dict_get d k = Some (Some v)
           /\ match tbl_get (m_tbl mo) k with
              | Some (Some v0) => val_of L t lo hi v0 v
              | _ => lo <= v < hi /\ nth_error t v = Some (CVal INil)
              end.
  Definition arr_of (L : iface -> iface -> Prop) (t : heap) (lo hi a a' : nat) : Prop :=
    exists l l', nth_error s a = Some (CArr l) /\ nth_error t a' = Some (CArr l') /\ lo <= a' < hi
      /\ Forall2 (fun o o' => exists v0 v, o = Some v0 /\ o' = Some v /\ val_of L t lo hi v0 v) l l'.
  Fixpoint like (n : nat) (t : heap) (lo hi : nat) (x y : iface) : Prop :=
    match n with
    | O => True
    | S n =>
        match x with
        | INil | IPtr _ None | IPMap None | IPArr None | ITime None => y = INil
        | IScal a => y = IScal a
        | ITimeV i | ITime (Some i) => y = ITime (Some i)
        | IErrs l => exists l', y = IErrs l' /\ length l' = length l
        | IPtr ty (Some p) => exists p' a, y = IPtr ty (Some p') /\ lo <= p' < hi /\ nth_error s p = Some (CPtr a) /\ nth_error t p' = Some (CPtr a)
        | IMap z | IPMap (Some z) => exists z', y = IPMap (Some z') /\ map_of (like n t lo hi) t lo hi z z'
        | IArr a | IPArr (Some a) => exists a', y = IPArr (Some a') /\ arr_of (like n t lo hi) t lo hi a a'
        | _ => True
        end
    end.
  Definition alike t lo hi x y : Prop := forall n, like n t lo hi x y.

  Definition within (lo hi : nat) (t t' : heap) : Prop := forall l, lo <= l < hi -> nth_error t' l = nth_error t l.
  Section Move.
    Context (t t' : heap) (lo hi lo' hi' : nat) (A : within lo hi t t') (Lo : lo' <= lo) (Hi : hi <= hi').
    Lemma val_move (L L' : iface -> iface -> Prop) v0 v : (forall x y, L x y -> L' x y) -> val_of L t lo hi v0 v -> val_of L' t' lo' hi' v0 v.
    Proof. intros H (x & y & E & R & E' & Q). exists x, y. split; auto. split; [lia|]. split; [now rewrite A|auto]. Qed.
    Lemma map_move (L L' : iface -> iface -> Prop) z z' : (forall x y, L x y -> L' x y) -> map_of L t lo hi z z' -> map_of L' t' lo' hi' z z'.
    Proof.
      intros H (mo & mc & d & E & E' & (Mk & Mv & Mr) & R1 & R2 & K & En). exists mo, mc, d. split; auto. split; [now rewrite A|].
      split; [split; auto; split; auto; now rewrite A|]. split; [lia|]. split; [lia|]. split; auto. intros k Ik. destruct (En k Ik) as (v & G & Q). exists v. split; auto.
      destruct (tbl_get (m_tbl mo) k) as [[v0|]|]; [eapply val_move; eauto| |]; destruct Q as [Q1 Q2]; (split; [lia|now rewrite A]).
    Qed.
    Lemma arr_move (L L' : iface -> iface -> Prop) a a' : (forall x y, L x y -> L' x y) -> arr_of L t lo hi a a' -> arr_of L' t' lo' hi' a a'.
    Proof.
      intros H (l & l' & E & E' & R & F). exists l, l'. split; auto. split; [now rewrite A|]. split; [lia|].
      clear E E'. induction F as [|o o' l l' (v0 & v & Eo & Eo' & Q) F IH]; constructor; auto.
      exists v0, v. split; auto. split; auto. eapply val_move; eauto.
    Qed.
    Lemma like_move n : forall x y, like n t lo hi x y -> like n t' lo' hi' x y.
    Proof.
      induction n as [|n IH]; intros x y H; [exact Logic.I|].
      destruct x as [| |ty [p|]|z|[z|]|a|[a|]| | | | | | | | | | | | |]; cbn in *; auto.
      - destruct H as (p' & a & E & R & E1 & E2). exists p', a. split; auto. split; [lia|]. split; auto. now rewrite A.
      - destruct H as (z' & E & Q). exists z'. split; auto. eapply map_move; eauto.
      - destruct H as (z' & E & Q). exists z'. split; auto. eapply map_move; eauto.
      - destruct H as (z' & E & Q). exists z'. split; auto. eapply arr_move; eauto.
      - destruct H as (z' & E & Q). exists z'. split; auto. eapply arr_move; eauto.
    Qed.
    Lemma alike_move x y : alike t lo hi x y -> alike t' lo' hi' x y.
    Proof. intros H n. now apply like_move. Qed.
  End Move.
  Lemma within_refl lo hi t : within lo hi t t.
  Proof. intros l _. reflexivity. Qed.
  Lemma alike_map t lo hi z z' x : x = IMap z \/ x = IPMap (Some z) -> map_of (alike t lo hi) t lo hi z z' -> alike t lo hi x (IPMap (Some z')).
  Proof.
    intros Hx H [|n]; [exact Logic.I|]. assert (Q : map_of (like n t lo hi) t lo hi z z').
    { eapply (map_move t t lo hi lo hi (within_refl _ _ _) (le_n _) (le_n _) (alike t lo hi)); [|exact H]. intros x' y' Q. apply Q. }
    destruct Hx as [-> | ->]; cbn; eauto.
  Qed.
  Lemma alike_arr t lo hi z z' x : x = IArr z \/ x = IPArr (Some z) -> arr_of (alike t lo hi) t lo hi z z' -> alike t lo hi x (IPArr (Some z')).
  Proof.
    intros Hx H [|n]; [exact Logic.I|]. assert (Q : arr_of (like n t lo hi) t lo hi z z').
    { eapply (arr_move t t lo hi lo hi (within_refl _ _ _) (le_n _) (le_n _) (alike t lo hi)); [|exact H]. intros x' y' Q. apply Q. }
    destruct Hx as [-> | ->]; cbn; eauto.
  Qed.

  (** Handles in [s] denote what is in [s]; [Pub] are the arrays that a program has made. *)
  Context (Pub : nat -> Prop).
  Definition lower (x : iface) : Prop :=
    match x with IPtr _ (Some p) => p < B | IMap z | IPMap (Some z) => z < B | IArr z | IPArr (Some z) => z < B /\ Pub z | _ => True end.
  Context (Cv : forall l x, nth_error s l = Some (CVal x) -> lower x)
          (Cm : forall l mo k v, nth_error s l = Some (CMap mo) -> tbl_get (m_tbl mo) k = Some (Some v) -> v < B)
          (Ca : forall l xs v, Pub l -> nth_error s l = Some (CArr xs) -> In (Some v) xs -> v < B).
  Context (X : ext).

  Definition after (h h' : heap) (k : ckind) (l c : nat) : Prop :=
    match k with
    | KVal => val_of (alike h' (length h) (length h')) h' (length h) (length h') l c
    | KMap => map_of (alike h' (length h) (length h')) h' (length h) (length h') l c
    | KArr => arr_of (alike h' (length h) (length h')) h' (length h) (length h') l c
    end.
  Definition deep (rec : ckind -> loc -> M (gres loc)) : Prop :=
    forall k l h c h', keeps B s h -> l < B -> (k = KArr -> Pub l) -> rec k l h = Ok (GVal c, h') -> after h h' k l c.

  Section Rec.
    Context (rec : ckind -> loc -> M (gres loc)) (F : fine rec) (D : deep rec).
    Lemma src h l c : keeps B s h -> l < B -> nth_error h l = Some c -> nth_error s l = Some c.
    Proof. intros K L H. now rewrite <- (proj2 K). Qed.
    Lemma src_val h l : keeps B s h -> l < B -> forall x, rd_val h l = Ok x -> nth_error s l = Some (CVal x).
    Proof. intros K L x H. apply rd_val_iff in H. eapply src; eauto. Qed.

    Lemma deep_map_of v x h z h' : keeps B s h -> v < B -> nth_error s v = Some (CVal x) -> clone_map_of rec X v h = Ok (GVal z, h') ->
      alike h' (length h) (length h') x (IPMap (Some z)).
    Proof.
      intros K L Hx E. unfold clone_map_of, bind, mlift, value_GetMap in E.
      assert (R : rd_val h v = Ok x) by (apply rd_val_iff; now rewrite (proj2 K)). rewrite R in E. cbn [rbind] in E.
      pose proof (Cv _ _ Hx) as Lx. destruct (iface_IsNil X x); [discriminate|].
      destruct x as [| |ty [p|]|q|[q|]|a|[a|]| | | | | | | | | | | | |]; try discriminate; cbn [rbind] in E; apply D in E; auto; try discriminate; (eapply alike_map; [|exact E]); auto.
    Qed.
    Lemma deep_arr_of v x h z h' : keeps B s h -> v < B -> nth_error s v = Some (CVal x) -> clone_arr_of rec X v h = Ok (GVal z, h') ->
      alike h' (length h) (length h') x (IPArr (Some z)).
    Proof.
      intros K L Hx E. unfold clone_arr_of, bind, mlift, value_GetArray in E.
      assert (R : rd_val h v = Ok x) by (apply rd_val_iff; now rewrite (proj2 K)). rewrite R in E. cbn [rbind] in E.
      pose proof (Cv _ _ Hx) as Lx. destruct (iface_IsNil X x); [discriminate|].
      destruct x as [| |ty [p|]|q|[q|]|a|[a|]| | | | | | | | | | | | |]; try discriminate; cbn [rbind] in E; destruct Lx as [Lx Px]; apply D in E; auto; (eapply alike_arr; [|exact E]); auto.
    Qed.

    Lemma deep_value v h c h' : keeps B s h -> v < B -> clone_value_body rec X v h = Ok (GVal c, h') -> after h h' KVal v c.
    Proof.
      intros K L E. unfold clone_value_body in E. unfold bind at 1, new_value, alloc in E. set (h1 := h ++ [CVal INil]) in *.
      assert (L1 : length h1 = S (length h)) by (unfold h1; rewrite app_length; cbn; lia).
      assert (LB : B <= length h) by apply K.
      assert (K1 : keeps B s h1) by (eapply keeps_trans; [exact K|now apply keeps_alloc]).
      unfold bind at 1, mlift, value_GetType in E. destruct (rd_val h1 v) as [x| | |] eqn:R; try discriminate. cbn [rbind] in E.
      pose proof (src_val _ _ K1 L _ R) as Hx. cbn [after].
      assert (S_ : forall y h2, keeps (length h1) h1 h2 -> (value_SetObject (length h) y ;; ret (GVal (length h))) h2 = Ok (GVal c, h') ->
        alike h2 (length h1) (length h2) x y -> val_of (alike h' (length h) (length h')) h' (length h) (length h') v c).
      { intros y h2 K2 E2 Q. unfold bind, value_SetObject in E2.
        assert (Hc : nth_error h2 (length h) = Some (CVal INil)) by (rewrite (proj2 K2) by lia; apply nth_error_alloc_new).
        pose proof (nth_error_lt _ _ _ Hc) as Lc. rewrite (proj2 (rd_val_iff _ _ _) Hc) in E2. rewrite wr_ok in E2 by auto. injection E2 as <- <-.
        exists x, y. split; auto. split; [rewrite upd_length; lia|]. split; [rewrite nth_error_upd by auto; now rewrite Nat.eqb_refl|].
        eapply alike_move; [| | |exact Q]; [|lia|rewrite upd_length; lia]. intros l Hl. rewrite nth_error_upd by auto. destruct (Nat.eqb_spec (length h) l); auto. lia. }
      destruct (common_IsMap (common_GetType X x)) eqn:Im.
      { unfold bind at 1 in E. destruct (clone_map_of rec X v h1) as [[[z|e] h2]| | |] eqn:Em; try discriminate.
        destruct (h_map_of X rec F (length h1) v h1 _ _ (le_n _) Em) as [K2 _]. eapply S_; eauto. eapply deep_map_of; eauto. }
      destruct (common_IsArray X (common_GetType X x)) eqn:Ia.
      { unfold bind at 1 in E. destruct (clone_arr_of rec X v h1) as [[[z|e] h2]| | |] eqn:Em; try discriminate.
        destruct (h_arr_of X rec F (length h1) v h1 _ _ (le_n _) Em) as [K2 _]. eapply S_; eauto. eapply deep_arr_of; eauto. }
      unfold bind at 1, mlift, value_GetObject in E. rewrite R in E. cbn [rbind] in E. unfold bind at 1 in E.
      destruct (clone_plain X x h1) as [[[j|] h2]| | |] eqn:Ep; try discriminate.
      destruct (h_plain X (length h1) x h1 _ _ (le_n _) Ep) as [K2 _]. eapply S_; eauto. intros [|n]; [exact Logic.I|].
      destruct x as [| |t [p|]| |[m|]| |[a|]| | |le| | | | | | | | |[ti|]|]; try exact Logic.I; cbn in Im, Ia; try discriminate.
      all: try (unfold clone_plain in Ep; unfold common_GetType in Ep; cbn [common_IsNil static_type andb] in Ep; destruct (x_typed_nil X); cbn in Ep, Im, Ia; try discriminate; injection Ep as <- _; reflexivity).
      - unfold clone_plain, common_GetType in Ep. cbn [common_IsNil static_type andb] in Ep. unfold bind at 1, mlift in Ep.
        destruct (deref h1 (IPtr t (Some p))) as [[a|]| | |] eqn:De; try discriminate. cbn [rbind] in Ep. unfold bind, alloc in Ep. injection Ep as <- <-.
        cbn [like]. exists (length h1), a. split; auto. split; [rewrite app_length; cbn; lia|]. cbn [deref] in De.
        destruct (rd_ptr h1 p) as [a'| | |] eqn:Hp; try discriminate. cbn [rbind] in De. destruct (stype_eqb _ _); [|discriminate]. injection De as ->.
        split; [eapply src; [exact K1|exact (Cv _ _ Hx)|now apply rd_ptr_iff]|apply nth_error_alloc_new].
      - unfold clone_plain, common_GetType in Ep. cbn [common_IsNil static_type andb] in Ep. destruct (existsb is_no_error le); [discriminate|].
        injection Ep as <- _. cbn [like]. eexists. split; [reflexivity|apply map_length].
    Qed.

    (** One stored Value, cloned in any of the three ways, seen from the loops. *)
    Definition grown (c : nat) (h h' : heap) : Prop := length h <= length h' /\ within (S c) (length h) h h'.
    Lemma grown_trans c h1 h2 h3 : grown c h1 h2 -> grown c h2 h3 -> grown c h1 h3.
    Proof. intros [A Q] [C R]. split; [lia|]. intros l Hl. rewrite R, Q; auto. lia. Qed.
    Lemma grown_keeps c (h h' : heap) : keeps (length h) h h' -> grown c h h'.
    Proof. intros [A Q]. split; auto. intros l Hl. apply Q. lia. Qed.
    Lemma val_grown c (h h' : heap) v0 v : grown c h h' -> val_of (alike h (S c) (length h)) h (S c) (length h) v0 v ->
      val_of (alike h' (S c) (length h')) h' (S c) (length h') v0 v.
    Proof. intros [A Q] H. eapply val_move; [exact Q|apply le_n|exact A| |exact H]. intros x y. now apply alike_move. Qed.
    (** A new Value around a copy. *)
    Lemma val_wrap c (h h1 : heap) v0 x y : S c <= length h -> keeps (length h) h h1 -> nth_error s v0 = Some (CVal x) -> alike h1 (length h) (length h1) x y ->
      let h2 := h1 ++ [CVal y] in val_of (alike h2 (S c) (length h2)) h2 (S c) (length h2) v0 (length h1).
    Proof.
      intros L [A _] Hx Q h2. exists x, y. split; auto. assert (L2 : length h2 = S (length h1)) by (unfold h2; rewrite app_length; cbn; lia).
      split; [lia|]. split; [apply nth_error_alloc_new|]. eapply alike_move; [| | |exact Q]; [|lia|lia].
      intros l Hl. unfold h2. now rewrite nth_error_app1 by lia.
    Qed.
    Lemma val_made c (h h1 : heap) v0 v : S c <= length h -> val_of (alike h1 (length h) (length h1)) h1 (length h) (length h1) v0 v ->
      val_of (alike h1 (S c) (length h1)) h1 (S c) (length h1) v0 v.
    Proof. intros L H. eapply val_move; [apply within_refl|exact L|apply le_n| |exact H]. intros x y. apply alike_move; [apply within_refl|exact L|apply le_n]. Qed.

    (** ** Arrays *)
    Definition pair (c : nat) (h : heap) (o o' : option nat) : Prop := exists v0 v, o = Some v0 /\ o' = Some v
      /\ val_of (alike h (S c) (length h)) h (S c) (length h) v0 v.
    Lemma pairs_grown c h h' ys l : grown c h h' -> Forall2 (pair c h) ys l -> Forall2 (pair c h') ys l.
    Proof.
      intros G Fp. induction Fp as [|a b ys l (v0 & v & -> & -> & Q) Fp IHf]; constructor; auto.
      exists v0, v. split; auto. split; auto. eapply val_grown; eauto.
    Qed.
    Lemma pairs_of c (h : heap) lo xs l : lo <= S c -> Forall2 (pair c h) xs l ->
      Forall2 (fun o o' => exists v0 v, o = Some v0 /\ o' = Some v /\ val_of (alike h lo (length h)) h lo (length h) v0 v) xs l.
    Proof.
      intros L Fp. induction Fp as [|o o' xs l' (v0 & v & -> & -> & Q) Fp IHf]; constructor; auto.
      exists v0, v. split; auto. split; auto. eapply val_move; [apply within_refl| | | |exact Q]; [lia|lia|]. intros x y. apply alike_move; [apply within_refl|lia|lia].
    Qed.
    Lemma append_grown c h l o u h' : nth_error h c = Some (CArr l) -> arr_AppendValue c o h = Ok (u, h') ->
      length h' = length h /\ nth_error h' c = Some (CArr (l ++ [o])) /\ grown c h h'.
    Proof.
      intros H E. unfold arr_AppendValue in E. rewrite (proj2 (rd_arr_iff _ _ _) H) in E. pose proof (nth_error_lt _ _ _ H) as Lc. rewrite wr_ok in E by auto. injection E as _ <-.
      split; [apply upd_length|]. split; [rewrite nth_error_upd by auto; now rewrite Nat.eqb_refl|]. split; [now rewrite upd_length|].
      intros x Hx. rewrite nth_error_upd by auto. destruct (Nat.eqb_spec c x); [lia|reflexivity].
    Qed.
    Lemma deep_elem c h l o e h' : keeps B s h -> B <= c -> nth_error h c = Some (CArr l) -> (forall v, o = Some v -> v < B) ->
      clone_elem rec X c o h = Ok (e, h') -> grown c h h' /\ keeps B h h'
      /\ exists l', nth_error h' c = Some (CArr l') /\ (e = [] -> exists o', l' = l ++ [o'] /\ pair c h' o o').
    Proof.
      intros K LB Hc Lo E. pose proof (proj1 (h_elem X rec F B c o LB h e h' (proj1 K) E)) as KB. pose proof (nth_error_lt _ _ _ Hc) as Lc.
      destruct o as [v|]; [|discriminate E]. specialize (Lo v eq_refl). cbn [clone_elem] in E. unfold bind at 1, mlift, value_GetType in E.
      destruct (rd_val h v) as [x| | |] eqn:R; try discriminate. cbn [rbind] in E. pose proof (src_val _ _ K Lo _ R) as Hx.
      assert (Err : forall (e1 : list err) h2, e1 <> [] -> keeps (length h) h h2 -> Ok (e1, h2) = Ok (e, h') ->
        grown c h h' /\ keeps B h h' /\ exists l', nth_error h' c = Some (CArr l') /\ (e = [] -> exists o', l' = l ++ [o'] /\ pair c h' (Some v) o')).
      { intros e1 h2 N K2 [= -> ->]. split; [now apply grown_keeps|]. split; auto. exists l. split; [now rewrite (proj2 K2)|]. intros Q. contradiction. }
      assert (Obj : forall y h2, keeps (length h) h h2 -> alike h2 (length h) (length h2) x y -> (arr_AppendObject c y ;; ret (@nil err)) h2 = Ok (e, h') ->
        grown c h h' /\ keeps B h h' /\ exists l', nth_error h' c = Some (CArr l') /\ (e = [] -> exists o', l' = l ++ [o'] /\ pair c h' (Some v) o')).
      { intros y h2 K2 Q E2. unfold bind at 1, arr_AppendObject, bind, new_value, alloc in E2.
        destruct (arr_AppendValue c (Some (length h2)) (h2 ++ [CVal y])) as [[u h3]| | |] eqn:Ea; try discriminate. injection E2 as <- <-.
        assert (Hc2 : nth_error (h2 ++ [CVal y]) c = Some (CArr l)) by (apply nth_error_alloc_old; now rewrite (proj2 K2)).
        destruct (append_grown _ _ _ _ _ _ Hc2 Ea) as (A1 & A2 & A3).
        split; [eapply grown_trans; [apply grown_keeps, K2|eapply grown_trans; [apply grown_keeps, keeps_alloc, le_n|exact A3]]|]. split; auto.
        eexists. split; [exact A2|]. intros _. eexists. split; [reflexivity|]. exists v, (length h2). split; auto. split; auto.
        eapply val_grown; [exact A3|]. apply (val_wrap c h h2 v x y); auto. }
      destruct (common_IsMap (common_GetType X x)); [|destruct (common_IsArray X (common_GetType X x))].
      - unfold bind at 1 in E. destruct (clone_map_of rec X v h) as [[r h2]| | |] eqn:Em; try discriminate.
        destruct (h_map_of X rec F (length h) v h _ _ (le_n _) Em) as [K2 G]. destruct r as [z|e1]; [|exact (Err _ _ G K2 E)].
        eapply Obj; [exact K2| |exact E]. eapply deep_map_of; eauto.
      - unfold bind at 1 in E. destruct (clone_arr_of rec X v h) as [[r h2]| | |] eqn:Em; try discriminate.
        destruct (h_arr_of X rec F (length h) v h _ _ (le_n _) Em) as [K2 G]. destruct r as [z|e1]; [|exact (Err _ _ G K2 E)].
        eapply Obj; [exact K2| |exact E]. eapply deep_arr_of; eauto.
      - unfold bind at 1 in E. destruct (rec KVal v h) as [[r h2]| | |] eqn:Em; try discriminate.
        destruct (F (length h) KVal v h _ _ (le_n _) Em) as [K2 G]. destruct r as [z|e1]; [|exact (Err _ _ G K2 E)].
        unfold bind in E. destruct (arr_AppendValue c (Some z) h2) as [[u h3]| | |] eqn:Ea; try discriminate. injection E as <- <-.
        assert (Hc2 : nth_error h2 c = Some (CArr l)) by (now rewrite (proj2 K2)).
        destruct (append_grown _ _ _ _ _ _ Hc2 Ea) as (A1 & A2 & A3).
        split; [eapply grown_trans; [apply grown_keeps, K2|exact A3]|]. split; auto. eexists. split; [exact A2|]. intros _. eexists. split; [reflexivity|].
        exists v, z. split; auto. split; auto. eapply val_grown; [exact A3|]. apply (val_made c h); auto. exact (D KVal v h z h2 K Lo ltac:(discriminate) Em).
    Qed.
    Lemma deep_elems c xs : forall h l ys h', keeps B s h -> B <= c -> nth_error h c = Some (CArr l) -> (forall v, In (Some v) xs -> v < B) ->
      Forall2 (pair c h) ys l -> clone_elems rec X c xs h = Ok ([], h') ->
      grown c h h' /\ exists l', nth_error h' c = Some (CArr l') /\ Forall2 (pair c h') (ys ++ xs) l'.
    Proof.
      induction xs as [|o xs IH]; intros h l ys h' K LB Hc Lo Fp E.
      - cbn in E. injection E as <-. split; [split; [auto|apply within_refl]|]. exists l. rewrite app_nil_r. auto.
      - cbn [clone_elems] in E. unfold bind in E. destruct (clone_elem rec X c o h) as [[e1 h1]| | |] eqn:E1; try discriminate.
        destruct (clone_elems rec X c xs h1) as [[e2 h2]| | |] eqn:E2; try discriminate. injection E as E <-. apply app_eq_nil in E as [-> ->].
        destruct (deep_elem c h l o [] h1 K LB Hc ltac:(intros v ->; apply Lo; now left) E1) as (G1 & KB & l1 & Hc1 & S1).
        assert (K1 : keeps B s h1) by (eapply keeps_trans; eauto). destruct (S1 eq_refl) as (o' & -> & P).
        destruct (IH h1 (l ++ [o']) (ys ++ [o]) h2 K1 LB Hc1) as (G2 & l' & A & A'); auto.
        + intros v Iv. apply Lo. now right.
        + apply Forall2_app; [|constructor; [exact P|constructor]]. eapply pairs_grown; eauto.
        + split; [eapply grown_trans; eauto|]. exists l'. rewrite <- app_assoc in A'. auto.
    Qed.
    Lemma deep_arr a h c h' : keeps B s h -> a < B -> Pub a -> clone_arr_body rec X a h = Ok (GVal c, h') -> after h h' KArr a c.
    Proof.
      intros K L Pa E. assert (LB : B <= length h) by apply K. unfold clone_arr_body in E. unfold bind at 1, new_array, alloc in E. set (h1 := h ++ [CArr []]) in *.
      assert (K1 : keeps B s h1) by (eapply keeps_trans; [exact K|now apply keeps_alloc]).
      assert (L1 : length h1 = S (length h)) by (unfold h1; rewrite app_length; cbn; lia).
      unfold bind at 1, mlift, arr_GetValues in E. destruct (rd_arr h1 a) as [xs| | |] eqn:R; try discriminate. cbn [rbind] in E. apply rd_arr_iff in R.
      pose proof (src _ _ _ K1 L R) as Ha. unfold bind in E. destruct (clone_elems rec X (length h) xs h1) as [[[|e es] h2]| | |] eqn:E2; try discriminate.
      injection E as <- <-. destruct (deep_elems (length h) xs h1 [] [] h2 K1 LB) as ([G1 G2] & l' & Hc & Fp); auto.
      - apply nth_error_alloc_new.
      - intros v Iv. eapply Ca; eauto.
      - exists xs, l'. split; auto. split; auto. split; [lia|]. cbn [app] in Fp. eapply pairs_of; [|exact Fp]. lia.
    Qed.

    (** ** Maps *)
    Definition good (lo c : nat) (h : heap) (d : dict (option nat)) : Prop :=
      exists mc, nth_error h c = Some (CMap mc) /\ map_holds h mc d /\ lo <= m_vals mc < c.
    Lemma good_keeps lo c h h' d : keeps (length h) h h' -> good lo c h d -> good lo c h' d.
    Proof.
      intros [_ K] (mo & Hm & (A & V & Q) & L). exists mo. rewrite (K c) by (now apply nth_error_lt in Hm). split; auto.
      split; auto. split; auto. split; auto. rewrite K; auto. now apply nth_error_lt in V.
    Qed.
    Lemma good_set lo c h d k o u h' : lo <= c -> good lo c h d -> map_setInternal c k o h = Ok (u, h') ->
      good lo c h' (dict_set d k o) /\ length h' = length h /\ grown c h h' /\ keeps lo h h'.
    Proof.
      intros Lc (mo & Hm & H & L) E. pose proof H as (Ek & V & Dk & T).
      destruct (proper_set lo c h d k o u h' (ex_intro _ mo (conj Hm (conj H (conj Lc (proj1 L))))) E) as (K1 & _ & (mc & Hc & Hh & _)).
      rewrite (set_map_run h c mo (m_vals mo) (dict_values d) k o Hm eq_refl V d T) in E. injection E as _ E.
      pose proof (nth_error_lt _ _ _ Hm) as L1. pose proof (nth_error_lt _ _ _ V) as L2.
      assert (Ln : length h' = length h) by (rewrite <- E, !upd_length; reflexivity).
      assert (Vm : m_vals mc = m_vals mo).
      { rewrite <- E in Hc. rewrite nth_error_upd in Hc by (now rewrite upd_length). rewrite Nat.eqb_refl in Hc. now injection Hc as <-. }
      split; [exists mc; split; auto; split; auto; lia|]. split; auto. split; auto. split; [lia|].
      intros l Hl. rewrite <- E. rewrite !nth_error_upd by (rewrite ?upd_length; auto). destruct (Nat.eqb_spec c l); [lia|]. destruct (Nat.eqb_spec (m_vals mo) l); [lia|reflexivity].
    Qed.
    Section Map.
      Context (m : nat) (mo : mobj) (Hm : nth_error s m = Some (CMap mo)) (lo c : nat) (LB : B <= lo) (Lc : lo <= c).
      Definition held (h : heap) (k : str) (v : nat) : Prop :=
        match tbl_get (m_tbl mo) k with
        | Some (Some v0) => val_of (alike h (S c) (length h)) h (S c) (length h) v0 v
        | _ => S c <= v < length h /\ nth_error h v = Some (CVal INil)
        end.
      Lemma held_grown h h' k v : grown c h h' -> held h k v -> held h' k v.
      Proof.
        intros G. unfold held. destruct (tbl_get (m_tbl mo) k) as [[v0|]|]; [now apply val_grown| |]; intros [A Q]; destruct G as [G1 G2]; (split; [lia|now rewrite G2]).
      Qed.
      Lemma deep_object h d k y u h' : good lo c h d -> S c <= length h -> map_SetObject c k y h = Ok (u, h') ->
        good lo c h' (dict_set d k (Some (length h))) /\ grown c (h ++ [CVal y]) h' /\ grown c h h' /\ keeps B h h'.
      Proof.
        intros G Ll E. unfold map_SetObject, bind, new_value, alloc in E. assert (K1 : keeps (length h) h (h ++ [CVal y])) by (now apply keeps_alloc).
        destruct (good_set lo c _ d k _ u h' Lc (good_keeps _ _ _ _ _ K1 G) E) as (A & _ & A2 & A3). split; auto. split; auto.
        split; [eapply grown_trans; [apply grown_keeps, K1|exact A2]|]. eapply keeps_trans; [eapply keeps_le; [|exact K1]; lia|eapply keeps_le; eauto].
      Qed.
      Lemma deep_key h d k h' : keeps B s h -> good lo c h d -> clone_key rec X m c k h = Ok ([], h') ->
        grown c h h' /\ keeps B h h' /\ exists v, good lo c h' (dict_set d k (Some v)) /\ held h' k v.
      Proof.
        intros K G E. assert (Lm : m < B) by (now apply nth_error_lt in Hm). assert (Hm1 : rd_map h m = Ok mo) by (apply rd_map_iff; now rewrite (proj2 K)).
        assert (Ll : S c <= length h) by (destruct G as (mc & Hc & _); now apply nth_error_lt in Hc).
        unfold clone_key in E. unfold bind at 1, mlift at 1 in E. destruct (map_is common_IsMap X h m k) as [im| | |] eqn:Em; try discriminate. cbn [rbind] in E.
        unfold bind at 1, mlift at 1 in E. destruct (map_is (common_IsArray X) X h m k) as [ia| | |] eqn:Ea; try discriminate. cbn [rbind] in E.
        unfold bind at 1, mlift at 1 in E. unfold map_GetValue at 1 in E. rewrite Hm1 in E. cbn [rbind] in E.
        destruct (match tbl_get (m_tbl mo) k with Some o => o | None => None end) as [v|] eqn:Eo.
        2:{ assert (E' : (map_SetObject c k INil ;; ret (@nil err)) h = Ok ([], h')) by (destruct im, ia; exact E).
            unfold bind in E'. destruct (map_SetObject c k INil h) as [[u h2]| | |] eqn:Es; try discriminate. injection E' as <-.
            destruct (deep_object _ _ _ _ _ _ G Ll Es) as (A1 & A2 & A3 & A4). split; auto. split; auto. exists (length h). split; auto.
            assert (Q : S c <= length h < length h2 /\ nth_error h2 (length h) = Some (CVal INil)).
            { destruct A2 as [A5 A6]. rewrite app_length in A5, A6. cbn in A5, A6. split; [lia|]. rewrite A6 by lia. apply nth_error_alloc_new. }
            unfold held. destruct (tbl_get (m_tbl mo) k) as [[?|]|]; auto; discriminate. }
        assert (T : tbl_get (m_tbl mo) k = Some (Some v)) by (destruct (tbl_get (m_tbl mo) k) as [[?|]|]; congruence).
        assert (Lv : v < B) by (eapply Cm; eauto).
        assert (Hx : exists x, nth_error s v = Some (CVal x)).
        { unfold map_is, map_via, map_IsNull in Em. rewrite Hm1 in Em. cbn [rbind] in Em. rewrite T in Em.
          destruct (rd_val h v) as [x| | |] eqn:R; try discriminate. exists x. eapply src_val; eauto. }
        destruct Hx as [x Hx].
        assert (Obj : forall y h2, keeps (length h) h h2 -> alike h2 (length h) (length h2) x y -> (map_SetObject c k y ;; ret (@nil err)) h2 = Ok ([], h') ->
          grown c h h' /\ keeps B h h' /\ exists v, good lo c h' (dict_set d k (Some v)) /\ held h' k v).
        { intros y h2 K2 Q E2. unfold bind in E2. destruct (map_SetObject c k y h2) as [[u h3]| | |] eqn:Es; try discriminate. injection E2 as <-.
          destruct (deep_object h2 d k y u h3 (good_keeps _ _ _ _ _ K2 G) ltac:(destruct K2; lia) Es) as (A1 & A2 & A3 & A4).
          split; [eapply grown_trans; [apply grown_keeps, K2|exact A3]|]. split; [eapply keeps_trans; [eapply keeps_le; [|exact K2]; lia|exact A4]|].
          exists (length h2). split; auto. unfold held. rewrite T. eapply val_grown; [exact A2|]. apply (val_wrap c h h2 v x y); auto. }
        destruct im; [|destruct ia].
        - unfold bind at 1 in E. destruct (clone_map_of rec X v h) as [[r h2]| | |] eqn:Ec; try discriminate.
          destruct (h_map_of X rec F (length h) v h _ _ (le_n _) Ec) as [K2 Gt]. destruct r as [z|e1]; [|injection E as -> _; now destruct Gt].
          eapply Obj; [exact K2| |exact E]. eapply deep_map_of; eauto.
        - unfold bind at 1 in E. destruct (clone_arr_of rec X v h) as [[r h2]| | |] eqn:Ec; try discriminate.
          destruct (h_arr_of X rec F (length h) v h _ _ (le_n _) Ec) as [K2 Gt]. destruct r as [z|e1]; [|injection E as -> _; now destruct Gt].
          eapply Obj; [exact K2| |exact E]. eapply deep_arr_of; eauto.
        - unfold bind at 1 in E. destruct (rec KVal v h) as [[r h2]| | |] eqn:Ec; try discriminate.
          destruct (F (length h) KVal v h _ _ (le_n _) Ec) as [K2 Gt]. destruct r as [z|e1]; [|injection E as -> _; now destruct Gt].
          unfold bind, map_SetValue in E. destruct (map_setInternal c k (Some z) h2) as [[u h3]| | |] eqn:Es; try discriminate. injection E as <-.
          destruct (good_set lo c _ d k _ _ _ Lc (good_keeps _ _ _ _ _ K2 G) Es) as (A1 & _ & A2 & A3).
          split; [eapply grown_trans; [apply grown_keeps, K2|exact A2]|]. split; [eapply keeps_trans; [eapply keeps_le; [|exact K2]; lia|eapply keeps_le; eauto]|].
          exists z. split; auto. unfold held. rewrite T. eapply val_grown; [exact A2|]. apply (val_made c h); auto. exact (D KVal v h z h2 K Lv ltac:(discriminate) Ec).
      Qed.
      Lemma deep_keys ks : forall h d h', keeps B s h -> good lo c h d -> clone_keys rec X m c ks h = Ok ([], h') ->
        grown c h h' /\ exists d', good lo c h' d' /\ dict_keys d' = dict_keys d ++ filter (fun x => negb (dict_has d x)) (once ks)
          /\ (forall k, In k ks -> exists v, dict_get d' k = Some (Some v) /\ held h' k v)
          /\ (forall k, ~ In k ks -> dict_get d' k = dict_get d k).
      Proof.
        induction ks as [|k ks IH]; intros h d h' K G E.
        - cbn in E. injection E as <-. split; [split; [auto|apply within_refl]|]. exists d. split; auto. cbn. rewrite app_nil_r. split; auto. split; auto. intros ? [].
        - cbn [clone_keys] in E. unfold bind in E. destruct (clone_key rec X m c k h) as [[e1 h1]| | |] eqn:E1; try discriminate.
          destruct (clone_keys rec X m c ks h1) as [[e2 h2]| | |] eqn:E2; try discriminate. injection E as E <-. apply app_eq_nil in E as [-> ->].
          destruct (deep_key _ _ _ _ K G E1) as (G1 & KB & v & P1 & En). assert (K1 : keeps B s h1) by (eapply keeps_trans; eauto).
          destruct (IH h1 _ h2 K1 P1 E2) as (G2 & d2 & P2 & A & A2 & A3). split; [eapply grown_trans; eauto|]. exists d2. split; auto. split; [|split].
          + rewrite A. unfold dict_keys. rewrite dict_keys_set. cbn [once filter].
            assert (Hh : forall x, dict_has (dict_set d k (Some v)) x = (str_eqb k x || dict_has d x)).
            { intros x. unfold dict_has. rewrite dict_get_set. now destruct (str_eqb k x). }
            assert (Fl : filter (fun x => negb (dict_has (dict_set d k (Some v)) x)) (once ks)
                       = filter (fun x => negb (dict_has d x)) (filter (fun x => negb (str_eqb x k)) (once ks))).
            { clear -Hh. induction (once ks) as [|y l IHl]; auto. cbn [filter]. rewrite Hh, IHl.
              assert (Sy : str_eqb k y = str_eqb y k) by (destruct (str_eqb_spec k y), (str_eqb_spec y k); congruence). rewrite Sy.
              destruct (str_eqb y k); reflexivity. }
            rewrite Fl. destruct (dict_has d k); cbn [negb]; auto. now rewrite <- app_assoc.
          + intros x Ix. destruct (in_dec (list_eq_dec ascii_dec) x ks) as [Iy|N]; [now apply A2|]. destruct Ix as [->|Iy]; [|contradiction].
            exists v. rewrite A3 by auto. rewrite dict_get_set, str_eqb_refl. split; auto. eapply held_grown; eauto.
          + intros x N. cbn in N. rewrite A3 by tauto. rewrite dict_get_set. destruct (str_eqb_spec k x); [tauto|reflexivity].
      Qed.
    End Map.
    Lemma deep_map m h c h' : keeps B s h -> m < B -> clone_map_body rec X m h = Ok (GVal c, h') -> after h h' KMap m c.
    Proof.
      intros K L E. assert (LB : B <= length h) by apply K. unfold clone_map_body, new_map, new_array in E. unfold bind at 1 2, alloc in E.
      set (h1 := (h ++ [CArr []]) ++ [CMap (MObj [] [] (length h))]) in *.
      assert (K0 : keeps (length h) h h1) by (eapply keeps_trans; [now apply keeps_alloc|apply keeps_alloc; rewrite app_length; lia]).
      assert (K1 : keeps B s h1) by (eapply keeps_trans; [exact K|eapply keeps_le; eauto]).
      assert (L1 : length h1 = S (S (length h))) by (unfold h1; rewrite !app_length; cbn; lia).
      set (c0 := length (h ++ [CArr []])) in *. assert (Lc : c0 = S (length h)) by (unfold c0; rewrite app_length; cbn; lia).
      unfold bind at 1, mlift, map_GetKeys in E. destruct (rd_map h1 m) as [mo| | |] eqn:R; try discriminate. cbn [rbind] in E. apply rd_map_iff in R.
      pose proof (src _ _ _ K1 L R) as Hm. unfold bind in E. destruct (clone_keys rec X m c0 (m_keys mo) h1) as [[[|e es] h2]| | |] eqn:E2; try discriminate.
      injection E as <- <-.
      assert (G : good (length h) c0 h1 []).
      { eexists. split; [unfold h1, c0; apply nth_error_alloc_new|]. cbn [m_vals]. split; [|lia]. split; [reflexivity|]. cbn [m_vals m_tbl].
        split; [apply nth_error_alloc_old, nth_error_alloc_new|]. split; [constructor|reflexivity]. }
      destruct (deep_keys m mo Hm (length h) c0 LB ltac:(lia) (m_keys mo) h1 [] h2 K1 G E2) as ([G1 _] & d & (mc & Hc & Hh & Lv) & A & A2 & _).
      exists mo, mc, d. split; auto. split; auto. split; auto. split; [lia|]. split; [lia|].
      split; [rewrite A; cbn; clear; induction (once (m_keys mo)) as [|x l IH]; cbn; congruence|].
      intros k Ik. destruct (A2 k Ik) as (v & Gv & Hv). exists v. split; auto. unfold held in Hv.
      destruct (tbl_get (m_tbl mo) k) as [[v0|]|]; [|destruct Hv; split; [lia|auto]..].
      eapply val_move; [apply within_refl| | | |exact Hv]; [lia|lia|]. intros x y. apply alike_move; [apply within_refl|lia|lia].
    Qed.
  End Rec.
  Lemma deep_clone f : deep (clone f X).
  Proof.
    induction f as [|f IH]; intros k l h c h' K L Pl E; [discriminate|]. destruct (clone_fine X f) as [F _]. destruct k; cbn [clone] in E.
    - eapply deep_value; eauto.
    - eapply deep_map; eauto.
    - eapply deep_arr; eauto.
  Qed.
End Deep.
