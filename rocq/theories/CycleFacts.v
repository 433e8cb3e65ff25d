(** * Serialisation terminates exactly on acyclic structures *)
From Coq Require Import Ascii String List NArith ZArith Bool Lia.
From Verif Require Import GoStr StrLemmas GoNum GoFloat Heap Common ValueModel ArrayModel MapModel JsonModel
  SpecDict DictLemmas SpecWorld Inv World Reach SpecDoc RepFacts SpecRender RenderFacts ParseWorld.
Import ListNotations.

(** ** Paths *)
Section Paths.
  Context (w : world).

  Lemma at_trans c p x : object_at w c p x ->
    (forall q y, object_at w x q y -> object_at w c (p ++ q) y)
    /\ (forall q v, value_at w x q v -> value_at w c (p ++ q) v).
  Proof.
    intros H. apply at_combined.
    - now rewrite app_nil_r.
    - intros q v i l _ V E R. eapply oa_in; eauto.
    - intros q y c' v _ O S. rewrite app_assoc. econstructor; eauto.
  Qed.

  (** [c'] is in a value of the container [c]. *)
  Definition step (c c' : nat) : Prop :=
    exists x v i, slot w c x v /\ w_val w v = Some i /\ refers i = Some c'.

  Lemma step_at c c' : step c c' -> exists x, object_at w c [x] c'.
  Proof.
    intros (x & v & i & S & V & R). exists x. eapply oa_in; eauto. apply (va w c [] x c v); auto. constructor.
  Qed.

  Lemma at_first c :
    (forall p l, object_at w c p l -> (p = [] /\ l = c) \/ exists x p' c', p = x :: p' /\ step c c' /\ object_at w c' p' l)
    /\ (forall p v, value_at w c p v -> exists x p', p = x :: p'
          /\ ((p' = [] /\ slot w c x v) \/ exists c', step c c' /\ value_at w c' p' v)).
  Proof.
    apply at_combined.
    - auto.
    - intros p v i l _ (x & p' & -> & [[-> S]|(c' & S & V)]) E R; right.
      + exists x, [], l. split; auto. split; [exists x, v, i; auto | constructor].
      + exists x, p', c'. split; auto. split; auto. eapply oa_in; eauto.
    - intros p x c' v _ [[-> ->]|(y & p' & c2 & -> & S & O)] Sl.
      + exists x, []. split; auto.
      + exists y, (p' ++ [x]). split; auto. right. exists c2. split; auto. econstructor; eauto.
  Qed.

  Fixpoint chain (c : nat) (l : list nat) : Prop :=
    match l with [] => True | c' :: t => step c c' /\ chain c' t end.

  Lemma chain_at l : forall c a x b, chain c l -> c :: l = a ++ x :: b ->
    (exists p, object_at w c p x /\ (a <> [] -> p <> [])) /\ chain x b.
  Proof.
    induction l as [|c' l IH]; intros c a x b H E.
    - destruct a as [|y a]; cbn in E.
      + inversion E; subst. split; [|exact I]. exists []. split; [constructor | congruence].
      + inversion E. destruct a; discriminate.
    - destruct a as [|y a]; cbn in E.
      + inversion E; subst. split; [|exact H]. exists []. split; [constructor | congruence].
      + inversion E as [[E1 E2]]. subst y. destruct H as [S H]. destruct (IH c' a x b H E2) as ((p & O & _) & B).
        split; auto. destruct (step_at _ _ S) as (z & Oz). exists (z :: p). split; [|discriminate].
        apply (at_trans _ _ _ Oz) in O. exact O.
  Qed.

  Lemma dup_split {A} (dec : forall x y : A, {x = y} + {x <> y}) (l : list A) :
    ~ NoDup l -> exists a x b c, l = a ++ x :: b ++ x :: c.
  Proof.
    induction l as [|y l IH]; intros N; [exfalso; apply N; constructor|].
    destruct (in_dec dec y l) as [I|I].
    - apply in_split in I as (b & c & ->). exists [], y, b, c. reflexivity.
    - destruct IH as (a & x & b & c & ->).
      + intros D. apply N. now constructor.
      + exists (y :: a), x, b, c. reflexivity.
  Qed.

  Lemma long_chain n c l : chain c l -> (forall x, In x (c :: l) -> x < n) -> n <= length l -> ~ acyclic w c.
  Proof.
    intros C B L A. assert (~ NoDup (c :: l)) as N.
    { intros D. apply (NoDup_incl_length (l' := seq 0 n)) in D.
      - rewrite seq_length in D. cbn in D. lia.
      - intros x I. apply in_seq. specialize (B x I). lia. }
    apply (dup_split Nat.eq_dec) in N as (a & x & b & d & E).
    destruct (chain_at l c a x (b ++ x :: d) C E) as ((p & O & _) & C').
    destruct (chain_at (b ++ x :: d) x (x :: b) x d C' eq_refl) as ((q & O' & Q) & _).
    apply Q; [discriminate|]. exact (A p x q O O').
  Qed.

  (** Containers from which a cycle is found. *)
  Definition endless (c : nat) : Prop := exists p x q, object_at w c p x /\ object_at w x q x /\ q <> [].

  Lemma endless_step c : endless c -> exists c', step c c' /\ endless c'.
  Proof.
    intros (p & x & q & O & O' & Q). destruct p as [|y p].
    - assert (x = c) as -> by (apply at_first in O as [[_ ->]|(? & ? & ? & E & _)]; [reflexivity | discriminate E]).
      pose proof O' as O2. apply at_first in O2 as [[-> _]|(z & q' & c' & -> & S & O2)]; [congruence|].
      exists c'. split; auto. exists q', c, (z :: q'). split; [exact O2|split; [exact O'|discriminate]].
    - apply at_first in O as [[? _]|(z & p' & c' & E & S & O2)]; [discriminate|].
      exists c'. split; auto. exists p', x, q. auto.
  Qed.
End Paths.

(** ** Running out of fuel *)
Section Run.
  Context (X : ext) (h : heap) (w : world) (I : impl h w) (V : Inv h).

  (** The container in an object. *)
  Definition container (i : iface) : option nat :=
    match i with
    | IMap m => Some m | IPMap o => o | IArr a => Some a | IPArr o => o | _ => None
    end.

  (** What the traversal does with a container. *)
  Definition conv_cont (conv : iface -> res (str * list err)) (c : nat) : res (str * list err) :=
    match w_map w c with
    | Some _ => map_json conv X h c
    | None => arr_json conv h c
    end.

  Lemma json_items_nofuel {A} (conv : A -> res (str * list err)) l :
    json_items conv l = NoFuel -> exists x, In x l /\ conv x = NoFuel.
  Proof.
    induction l as [|x l IH]; cbn; [discriminate|]. destruct (conv x) as [r| | |] eqn:E; cbn; try discriminate.
    - destruct (json_items conv l) as [q| | |]; cbn; try discriminate. intros _. destruct (IH eq_refl) as (y & Hy & Ey). eauto.
    - eauto.
  Qed.

  Lemma json_members_nofuel conv t ks : json_members conv X t ks = NoFuel ->
    exists k, In k ks /\ conv (IPVal (match tbl_get t k with Some o => o | None => None end)) = NoFuel.
  Proof.
    induction ks as [|k ks IH]; cbn; [discriminate|]. destruct (x_escape X k); [|discriminate].
    destruct (conv _) as [r| | |] eqn:E; cbn; try discriminate.
    - destruct (json_members conv X t ks) as [q| | |]; cbn; try discriminate.
      intros _. destruct (IH eq_refl) as (y & Hy & Ey). eauto.
    - eauto.
  Qed.

  Lemma conv_cont_nofuel conv c : (exists d, w_map w c = Some d) \/ (exists l, w_arr w c = Some l) ->
    conv (IPVal None) <> NoFuel ->
    conv_cont conv c = NoFuel -> exists x v, slot w c x v /\ conv (IPVal (Some v)) = NoFuel.
  Proof.
    unfold conv_cont. intros C N. destruct (w_map w c) as [d|] eqn:Ed.
    - pose proof Ed as Ed'. apply (im_map _ _ I) in Ed' as (mo & H & EK & _ & _ & G). apply rd_map_iff in H.
      unfold map_json. rewrite H. cbn [rbind]. destruct (m_keys mo) as [|k0 ks] eqn:K; [discriminate|].
      destruct (json_members _ _ _ _) as [q| | |] eqn:E; cbn; try discriminate. intros _.
      apply json_members_nofuel in E as (k & Hk & E). rewrite G in E.
      destruct (dict_get d k) as [[v|]|] eqn:Ek; try contradiction.
      exists (PKey k), v. split; auto. cbn. eauto.
    - destruct C as [[d C]|[l El]]; [congruence|]. pose proof El as El'. apply (im_arr _ _ I) in El' as [H _]. apply rd_arr_iff in H.
      unfold arr_json. rewrite H. cbn [rbind]. destruct l as [|o0 l0] eqn:K; [discriminate|].
      destruct (json_items _ _) as [q| | |] eqn:E; cbn; try discriminate. intros _. rewrite <- K in *.
      apply json_items_nofuel in E as (o & Ho & E). destruct o as [v|]; [|contradiction].
      apply In_nth_error in Ho as (n & Hn). exists (PIndex n), v. split; auto. cbn. eauto.
  Qed.

  Lemma container_ok v i c : w_val w v = Some i -> container i = Some c ->
    (exists d, w_map w c = Some d) \/ (exists l, w_arr w c = Some l).
  Proof.
    intros H R. apply (im_val _ _ I) in H. apply (inv_val _ V) in H.
    destruct i as [| |t o|m|o|a|o| | | | |[?|]|[?|]| |[?|]| | |[?|]|[?|]|? [?|]]; cbn in R; try discriminate; try subst o;
      try (inversion R; subst); cbn in H.
    1,2: left; destruct H as [mo H]; destruct (map_dict_ex _ _ _ V H) as [d D]; exists d; now apply (im_map _ _ I).
    all: right; destruct H as [[l H] N]; exists l; apply (im_arr _ _ I); auto.
  Qed.

  Lemma container_kind i c v : w_val w v = Some i -> container i = Some c ->
    forall conv, json_held conv X h i = conv_cont conv c.
  Proof.
    intros H R conv. pose proof (im_val _ _ I v i) as [Q _]. pose proof (inv_val _ V _ _ (Q H)) as K. unfold conv_cont.
    destruct i as [| |t o|m|o|a|o| | | | |[?|]|[?|]| |[?|]| | |[?|]|[?|]|? [?|]]; cbn in R; try discriminate; try subst o;
      try (inversion R; subst); cbn in K.
    1,2: destruct K as [mo K]; destruct (map_dict_ex _ _ _ V K) as [d D]; apply (im_map _ _ I) in D; rewrite D; reflexivity.
    all: destruct K as [[l K] N]; destruct (w_map w c) as [d|] eqn:E; [|reflexivity];
      apply (im_map _ _ I) in E as (mo & E & _); congruence.
  Qed.

  Lemma json_held_nofuel i conv : json_held conv X h i = NoFuel -> exists c, container i = Some c.
  Proof.
    unfold json_held, common_GetType.
    destruct (common_IsNil i && x_typed_nil X) eqn:N; [discriminate|].
    destruct i as [|s|t [p|]|m|[m|]|a|[a|]|v|[v|]|l|l|[l|]|[l|]|e|[e|]|n|b|[b|]|[n|]|n [y|]]; cbn; intros H; try discriminate; eauto.
    - unfold rd_ptr in H. destruct (nth_error h p) as [[]|]; cbn in H; try discriminate.
      destruct (stype_eqb _ _); cbn in H; discriminate.
    - destruct (error_items_ok l) as [q Q]. rewrite Q in H. discriminate.
    - rewrite quoted_items in H. discriminate.
    - destruct (error_items_ok l) as [q Q]. rewrite Q in H. discriminate.
    - rewrite quoted_items in H. discriminate.
    - repeat match type of H with (if ?b then _ else _) = _ => destruct b end; discriminate.
    - repeat match type of H with (if ?b then _ else _) = _ => destruct b end; discriminate.
  Qed.

  Lemma container_refers i c : container i = Some c -> refers i = Some c.
  Proof. destruct i; cbn; auto; discriminate. Qed.

  Lemma nofuel_chain n : forall c, (exists d, w_map w c = Some d) \/ (exists l, w_arr w c = Some l) ->
    conv_cont (conv_json (S n) X h) c = NoFuel ->
    exists l, length l = S n /\ chain w c l
      /\ forall x, In x l -> (exists d, w_map w x = Some d) \/ (exists l, w_arr w x = Some l).
  Proof.
    induction n as [|n IH]; intros c C H.
    - apply conv_cont_nofuel in H as (x & v & S & H); auto; [|cbn; discriminate].
      destruct (w_val w v) as [i|] eqn:Ei.
      + rewrite (conv_json_value X h w I 0 v i Ei) in H. destruct (json_held_nofuel _ _ H) as (c' & R).
        exists [c']. split; [reflexivity|]. split.
        * split; [|exact Logic.I]. exists x, v, i. repeat split; auto. now apply container_refers.
        * intros y [<-|[]]. eapply container_ok; eauto.
      + exfalso. cbn in H. destruct (rd_val h v) as [j| | |] eqn:Q; cbn in H; try discriminate.
        * apply rd_val_iff in Q. apply (im_val _ _ I) in Q. congruence.
        * unfold rd_val in Q. destruct (nth_error h v) as [[]|]; discriminate.
    - apply conv_cont_nofuel in H as (x & v & S & H); auto; [|cbn; discriminate].
      destruct (w_val w v) as [i|] eqn:Ei.
      + rewrite (conv_json_value X h w I _ v i Ei) in H. destruct (json_held_nofuel _ _ H) as (c' & R).
        rewrite (container_kind i c' v Ei R) in H. pose proof (container_ok v i c' Ei R) as C'.
        destruct (IH c' C' H) as (l & L & Ch & B). exists (c' :: l). split; [cbn; lia|]. split.
        * split; auto. exists x, v, i. repeat split; auto. now apply container_refers.
        * intros y [<-|Hy]; auto.
      + exfalso. cbn in H. destruct (rd_val h v) as [j| | |] eqn:Q; cbn in H; try discriminate.
        * apply rd_val_iff in Q. apply (im_val _ _ I) in Q. congruence.
        * unfold rd_val in Q. destruct (nth_error h v) as [[]|]; discriminate.
  Qed.

  Lemma exists_lt c : (exists d, w_map w c = Some d) \/ (exists l, w_arr w c = Some l) -> c < length h.
  Proof.
    intros [[d H]|[l H]].
    - apply (im_map _ _ I) in H as (mo & H & _). apply nth_error_Some. congruence.
    - apply (im_arr _ _ I) in H as [H _]. apply nth_error_Some. congruence.
  Qed.

  Lemma acyclic_fuel c n : (exists d, w_map w c = Some d) \/ (exists l, w_arr w c = Some l) ->
    acyclic w c -> S (length h) <= n -> conv_cont (conv_json n X h) c <> NoFuel.
  Proof.
    intros C A L H. destruct n as [|n]; [lia|]. destruct (nofuel_chain n c C H) as (l & Ll & Ch & B).
    apply (long_chain w (length h) c l Ch); auto; [|lia].
    intros x [<-|Hx]; apply exists_lt; auto.
  Qed.

  (** ** More fuel does not change a result *)
  Lemma rbind_mono {A B} (a a' : res A) (k k' : A -> res B) :
    (a <> NoFuel -> a' = a) -> (forall x, k x <> NoFuel -> k' x = k x) ->
    rbind a k <> NoFuel -> rbind a' k' = rbind a k.
  Proof.
    intros H K N. destruct a as [x| | |]; cbn in N; try (rewrite H by discriminate; cbn; auto); congruence.
  Qed.
  Lemma json_items_mono {A} (f g : A -> res (str * list err)) l :
    (forall x, f x <> NoFuel -> g x = f x) -> json_items f l <> NoFuel -> json_items g l = json_items f l.
  Proof.
    intros H. induction l as [|x l IH]; auto. cbn [json_items].
    apply rbind_mono; auto. intros r. apply rbind_mono; auto.
  Qed.
  Lemma json_members_mono f g t ks :
    (forall x, f x <> NoFuel -> g x = f x) -> json_members f X t ks <> NoFuel -> json_members g X t ks = json_members f X t ks.
  Proof.
    intros H. induction ks as [|x l IH]; auto. cbn [json_members]. destruct (x_escape X x); auto.
    apply rbind_mono; auto. intros r. apply rbind_mono; auto.
  Qed.
  Lemma map_json_mono f g m :
    (forall x, f x <> NoFuel -> g x = f x) -> map_json f X h m <> NoFuel -> map_json g X h m = map_json f X h m.
  Proof.
    intros H. unfold map_json. apply rbind_mono; auto. intros mo. destruct (m_keys mo); auto.
    apply rbind_mono; auto. intros N. now apply json_members_mono.
  Qed.
  Lemma arr_json_mono f g a :
    (forall x, f x <> NoFuel -> g x = f x) -> arr_json f h a <> NoFuel -> arr_json g h a = arr_json f h a.
  Proof.
    intros H. unfold arr_json. apply rbind_mono; auto. intros l. destruct l as [|o l]; auto.
    apply rbind_mono; auto. intros N. apply (json_items_mono (fun o => f (IPVal o)) (fun o => g (IPVal o))); auto.
  Qed.
  Lemma json_held_mono f g i :
    (forall x, f x <> NoFuel -> g x = f x) -> json_held f X h i <> NoFuel -> json_held g X h i = json_held f X h i.
  Proof.
    intros H. unfold json_held. destruct (common_GetType X i); auto;
      destruct i as [| |t o|m|[m|]|a|[a|]| | | | |[?|]|[?|]| |[?|]| | |[?|]|[?|]|? [?|]]; auto using map_json_mono, arr_json_mono.
  Qed.

  Lemma conv_json_S f i : conv_json (S f) X h i =
    if common_IsNil i then Ok (lit "null", [])
    else tv <-r match i with
               | IVal v | IPVal (Some v) => rd_val h v
               | _ => Ok i
               end ;; json_held (conv_json f X h) X h tv.
  Proof. reflexivity. Qed.

  Lemma conv_json_mono n : forall i, conv_json n X h i <> NoFuel -> conv_json (S n) X h i = conv_json n X h i.
  Proof.
    induction n as [|n IH]; intros i N; [now cbn in N|].
    rewrite conv_json_S in N. rewrite (conv_json_S (S n)), (conv_json_S n).
    destruct (common_IsNil i); auto.
    destruct (match i with IVal v | IPVal (Some v) => rd_val h v | _ => Ok i end) as [tv| | |]; cbn [rbind] in *; auto.
    apply json_held_mono; auto.
  Qed.

  Lemma conv_json_more n k i : conv_json n X h i <> NoFuel -> conv_json (k + n) X h i = conv_json n X h i.
  Proof.
    intros N. induction k as [|k IH]; auto. cbn [Nat.add]. rewrite conv_json_mono; congruence.
  Qed.
  Lemma conv_cont_more n k c : conv_cont (conv_json n X h) c <> NoFuel ->
    conv_cont (conv_json (k + n) X h) c = conv_cont (conv_json n X h) c.
  Proof.
    unfold conv_cont. intros N.
    destruct (w_map w c); [apply map_json_mono | apply arr_json_mono]; auto using conv_json_more.
  Qed.

  (** ** Without nil pointer types there is no panic *)
  Definition fine (r : res (str * list err)) : Prop := r = NoFuel \/ exists x, r = Ok x.

  Lemma json_items_fine {A} (f : A -> res (str * list err)) l :
    (forall x, In x l -> fine (f x)) -> fine (json_items f l) /\ ((exists x, In x l /\ f x = NoFuel) -> json_items f l = NoFuel).
  Proof.
    induction l as [|x l IH]; intros H.
    - split; [right; eexists; reflexivity | intros (x & [] & _)].
    - destruct IH as [[B|[q B]] C]; [intros; apply H; now right| |]; cbn; destruct (H x (or_introl eq_refl)) as [Q|[r Q]]; rewrite Q; cbn.
      1,3: split; [now left | auto].
      + rewrite B. split; [now left|auto].
      + rewrite B. split; [right; eexists; reflexivity|]. intros (y & [->|Hy] & E); [congruence|].
        rewrite C in B; [discriminate|eauto].
  Qed.
  Lemma json_members_fine f t ks : escape_ok X ->
    (forall o, In o (map (fun k => match tbl_get t k with Some o => o | None => None end) ks) -> fine (f (IPVal o))) ->
    (json_members f X t ks = NoFuel \/ exists x, json_members f X t ks = Ok x)
    /\ ((exists k, In k ks /\ f (IPVal (match tbl_get t k with Some o => o | None => None end)) = NoFuel) -> json_members f X t ks = NoFuel).
  Proof.
    intros E. induction ks as [|k ks IH]; intros H.
    - split; [right; eexists; reflexivity | intros (x & [] & _)].
    - destruct IH as [[B|[q B]] C]; [intros; apply H; now right| |]; cbn; rewrite E; destruct (H _ (or_introl eq_refl)) as [A|[r A]]; rewrite A; cbn.
      1,3: split; [now left | auto].
      + rewrite B. split; [now left|auto].
      + rewrite B. split; [right; eexists; reflexivity|]. intros (y & [->|Hy] & Ey); [congruence|].
        rewrite C in B; [discriminate|eauto].
  Qed.

  Lemma ok_values_map m mo k : nth_error h m = Some (CMap mo) ->
    ok_oloc h (match tbl_get (m_tbl mo) k with Some o => o | None => None end).
  Proof.
    intros H. destruct (inv_map _ V _ _ H) as (d & EK & Hv & _ & G). rewrite G.
    destruct (dict_get d k) as [o|] eqn:E; [|exact Logic.I].
    pose proof (inv_arr _ V _ _ Hv) as F. rewrite Forall_forall in F. apply F.
    clear - E. induction d as [|[k' o'] d IH]; cbn in *; [discriminate|]. destruct (str_eqb k' k); [left; congruence | right; auto].
  Qed.

  Lemma conv_cont_fine conv c : escape_ok X -> (exists d, w_map w c = Some d) \/ (exists l, w_arr w c = Some l) ->
    (forall o, ok_oloc h o -> fine (conv (IPVal o))) ->
    fine (conv_cont conv c)
    /\ ((exists x v, slot w c x v /\ conv (IPVal (Some v)) = NoFuel) -> conv_cont conv c = NoFuel).
  Proof.
    intros E C H. unfold conv_cont. destruct (w_map w c) as [d|] eqn:Ed.
    - pose proof Ed as Ed'. apply (im_map _ _ I) in Ed' as (mo & Hm & EK & _ & _ & G). pose proof Hm as Hm'. apply rd_map_iff in Hm'.
      unfold map_json. rewrite Hm'. cbn [rbind].
      destruct (json_members_fine conv (m_tbl mo) (m_keys mo) E) as [A B].
      { intros o Ho. apply in_map_iff in Ho as (k & <- & _). apply H. eapply ok_values_map; eauto. }
      split.
      + destruct (m_keys mo); [right; eexists; reflexivity|].
        destruct A as [-> | [q ->]]; [now left | right; eexists; reflexivity].
      + intros (x & v & Hs & N). assert (exists k, x = PKey k /\ dict_get d k = Some (Some v)) as (k & -> & Ek).
        { destruct x as [k|n]; cbn in Hs; destruct Hs as (y & Hy & Gy).
          - exists k. split; auto. congruence.
          - apply (im_arr _ _ I) in Hy as [Hy _]. congruence. }
        assert (In k (m_keys mo)) as Ik. { rewrite EK. clear - Ek. induction d as [|[k' o] d IH]; cbn in *; [discriminate|].
          destruct (str_eqb_spec k' k); auto. }
        rewrite B.
        * destruct (m_keys mo); [destruct Ik | reflexivity].
        * exists k. split; auto. now rewrite G, Ek.
    - destruct C as [[d C]|[l El]]; [congruence|]. pose proof El as El'. apply (im_arr _ _ I) in El' as [Ha _].
      pose proof (inv_arr _ V _ _ Ha) as F. rewrite Forall_forall in F. apply rd_arr_iff in Ha.
      unfold arr_json. rewrite Ha. cbn [rbind].
      destruct (json_items_fine (fun o => conv (IPVal o)) l) as [A B]; [auto|].
      split.
      + destruct l; [right; eexists; reflexivity|]. destruct A as [-> | [q ->]]; [now left | right; eexists; reflexivity].
      + intros (x & v & Hs & N). assert (In (Some v) l) as Iv.
        { destruct x as [k|n]; cbn in Hs; destruct Hs as (y & Hy & Gy); [congruence|].
          apply nth_error_In with n. congruence. }
        rewrite B; eauto. destruct l; [destruct Iv | reflexivity].
  Qed.

  Lemma conv_fine n : escape_ok X -> x_typed_nil X = true -> forall o, ok_oloc h o -> fine (conv_json n X h (IPVal o)).
  Proof.
    intros E T. induction n as [|n IH]; intros o O; [now left|].
    destruct o as [v|]; [|right; eexists; reflexivity]. destruct O as [i Hi].
    pose proof (inv_val _ V _ _ Hi) as K. apply (im_val _ _ I) in Hi. rewrite (conv_json_value X h w I n v i Hi).
    destruct (container i) as [c|] eqn:Ec.
    - rewrite (container_kind i c v Hi Ec). apply conv_cont_fine; auto. eapply container_ok; eauto.
    - unfold json_held, common_GetType. rewrite T.
      destruct i as [|s|t [p|]|m|[m|]|a|[a|]|j|[j|]|l|l|[l|]|[l|]|e|[e|]|q|b|[b|]|[q|]|q [y|]]; cbn in Ec; try discriminate; cbn; try (right; eexists; reflexivity).
      + destruct K as (s & K & <-). apply rd_ptr_iff in K. rewrite K. cbn.
        assert (stype_eqb (stype_of s) (stype_of s) = true) as -> by (destruct s as [| |[]|[]]; reflexivity).
        right; eexists; reflexivity.
      + destruct (error_items_ok l) as [z ->]. right; eexists; reflexivity.
      + rewrite quoted_items. right; eexists; reflexivity.
      + destruct (error_items_ok l) as [z ->]. right; eexists; reflexivity.
      + rewrite quoted_items. right; eexists; reflexivity.
      + rewrite andb_false_r. repeat match goal with |- fine (if ?b then _ else _) => destruct b end; right; eexists; reflexivity.
  Qed.

  (** Something stored in a container that has slots is a container. *)
  Lemma endless_container c : endless w c -> (exists d, w_map w c = Some d) \/ (exists l, w_arr w c = Some l).
  Proof.
    intros H. apply endless_step in H as (c' & (x & v & i & S & _) & _).
    destruct x; cbn in S; destruct S as (y & Hy & _); eauto.
  Qed.

  Lemma endless_nofuel n : escape_ok X -> x_typed_nil X = true -> forall c, endless w c -> conv_cont (conv_json n X h) c = NoFuel.
  Proof.
    intros E T. induction n as [|n IH]; intros c H; pose proof (endless_container c H) as C;
      apply endless_step in H as (c' & (x & v & i & S & Hv & R) & H'); apply conv_cont_fine; auto using conv_fine;
      exists x, v; split; auto.
    rewrite (conv_json_value X h w I n v i Hv).
    assert (container i = Some c') as K.
    { destruct i as [| |t o|m|o|a|o| | | | |[?|]|[?|]| |[?|]| | |[?|]|[?|]|? [?|]]; cbn in R |- *; auto. subst o. exfalso.
      apply endless_container in H' as [[d D]|[l L]]; pose proof (im_val _ _ I v (IPtr t (Some c'))) as [Q _];
        pose proof (inv_val _ V _ _ (Q Hv)) as (s & Hs & _).
      - apply (im_map _ _ I) in D as (mo & D & _). congruence.
      - apply (im_arr _ _ I) in L as [L _]. congruence. }
    rewrite (container_kind i c' v Hv K). auto.
  Qed.
End Run.
