(** * Facts about programs that write into the slice returned by GetKeys *)
From Coq Require Import Ascii String List NArith ZArith Bool Lia.
From Verif Require Import GoStr StrLemmas GoNum GoFloat Heap Common ValueModel ArrayModel MapModel JsonModel GetterModel
  ValuesModel SpecDict DictLemmas SpecWorld SpecValues Inv World Reach MapFacts GetterFacts GetterFrame ValuesFacts
  SpecRelabel RelabelModel.
Import ListNotations.
Open Scope nat_scope.

(** [h1] is [h2] except that the map [m] lists [ns m] and its list of values is [vs m]. *)
Record rsim (h1 h2 : heap) (ns : names) (vs : lists) : Prop := {
  r_len : length h1 = length h2;
  r_cell : forall l, ~ owned h2 l -> (forall mo, nth_error h2 l <> Some (CMap mo)) -> nth_error h1 l = nth_error h2 l;
  r_map : forall m mo, nth_error h2 m = Some (CMap mo) -> nth_error h1 m = Some (CMap (MObj (m_tbl mo) (ns m) (m_vals mo)));
  r_vals : forall m mo, nth_error h2 m = Some (CMap mo) -> nth_error h1 (m_vals mo) = Some (CArr (vs m)) }.

Lemma rsim_start h w : Inv h -> impl h w -> rsim h h (names_of w) (lists_of w).
Proof.
  intros I P. assert (Q : forall m mo, nth_error h m = Some (CMap mo) -> map_holds h mo (map_at w m)).
  { intros m mo Hm. destruct (inv_map _ I _ _ Hm) as [d D]. assert (W : w_map w m = Some d) by (apply (im_map _ _ P); exists mo; auto).
    unfold map_at. now rewrite W. }
  split; auto.
  - intros m mo Hm. destruct (Q _ _ Hm) as (E & _). unfold names_of. rewrite Hm. rewrite <- E. now destruct mo.
  - intros m mo Hm. apply (Q _ _ Hm).
Qed.

Section Rsim.
  Context {h1 h2 : heap} {ns : names} {vs : lists} (I : Inv h2) (R : rsim h1 h2 ns vs).

  Lemma vals_arr m mo : nth_error h2 m = Some (CMap mo) -> exists xs, nth_error h2 (m_vals mo) = Some (CArr xs).
  Proof. intros H. destruct (inv_map _ I _ _ H) as [d D]. eexists. apply D. Qed.
  Lemma rsim_other l c : nth_error h2 l = Some c -> (forall xs, c <> CArr xs) -> (forall mo, c <> CMap mo) -> nth_error h1 l = Some c.
  Proof.
    intros H N M. rewrite (r_cell _ _ _ _ R); auto.
    - intros (m & mo & Hm & E). destruct (vals_arr _ _ Hm) as [xs Hx]. rewrite E, H in Hx. injection Hx as ->. now apply (N xs).
    - intros mo E. rewrite H in E. injection E as ->. now apply (M mo).
  Qed.
  Lemma rsim_agree : agree h2 h1.
  Proof.
    split; [|split].
    - intros l i H. apply rsim_other; auto; discriminate.
    - intros l i H. apply rsim_other; auto; discriminate.
    - intros l xs H N. rewrite (r_cell _ _ _ _ R); auto. congruence.
  Qed.
  Lemma map_not_owned m mo : nth_error h2 m = Some (CMap mo) -> ~ owned h2 m.
  Proof. intros H (m' & mo' & H' & E). destruct (vals_arr _ _ H') as [xs Hx]. congruence. Qed.

  Lemma rsim_alloc c : (forall mo, c <> CMap mo) -> rsim (h1 ++ [c]) (h2 ++ [c]) ns vs.
  Proof.
    intros N. assert (OM : forall m mo, nth_error (h2 ++ [c]) m = Some (CMap mo) -> nth_error h2 m = Some (CMap mo)).
    { intros m mo H. rewrite nth_error_alloc in H. destruct (Nat.ltb m (length h2)); auto.
      destruct (Nat.eqb m (length h2)); inversion H. now destruct (N mo). }
    split.
    - rewrite !app_length. now rewrite (r_len _ _ _ _ R).
    - intros l O Nm. rewrite owned_alloc in O by auto. rewrite nth_error_alloc in Nm. rewrite !nth_error_alloc, (r_len _ _ _ _ R) in *.
      destruct (Nat.ltb l (length h2)); auto. apply (r_cell _ _ _ _ R); auto.
    - intros m mo H. apply nth_error_alloc_old. apply (r_map _ _ _ _ R). auto.
    - intros m mo H. apply nth_error_alloc_old. apply (r_vals _ _ _ _ R). auto.
  Qed.

  (** The same write to a cell that is no map and belongs to none. *)
  Lemma rsim_upd l c0 c : nth_error h2 l = Some c0 -> (forall mo, c0 <> CMap mo) -> (forall mo, c <> CMap mo) -> ~ owned h2 l ->
    rsim (upd h1 l c) (upd h2 l c) ns vs.
  Proof.
    intros H N0 N NO. pose proof (nth_error_lt _ _ _ H) as L. assert (L1 : l < length h1) by (rewrite (r_len _ _ _ _ R); auto).
    assert (OM : forall m mo, nth_error (upd h2 l c) m = Some (CMap mo) -> l <> m /\ nth_error h2 m = Some (CMap mo)).
    { intros m mo E. rewrite nth_error_upd in E by auto. destruct (Nat.eqb_spec l m); auto. injection E as E. now destruct (N mo). }
    assert (OW : forall a, owned h2 a -> owned (upd h2 l c) a).
    { intros a (m & mo & Hm & E). exists m, mo. split; auto. rewrite nth_error_upd by auto. destruct (Nat.eqb_spec l m); auto. subst m.
      rewrite H in Hm. injection Hm as Hm. now destruct (N0 mo). }
    split.
    - rewrite !upd_length. apply R.
    - intros x O Nm. rewrite nth_error_upd in Nm by auto. rewrite !nth_error_upd by auto. destruct (Nat.eqb l x); auto. apply (r_cell _ _ _ _ R); auto.
    - intros m mo E. destruct (OM _ _ E) as [D E2]. rewrite nth_error_upd by auto. destruct (Nat.eqb_spec l m); [contradiction|]. now apply (r_map _ _ _ _ R).
    - intros m mo E. destruct (OM _ _ E) as [D E2]. rewrite nth_error_upd by auto.
      destruct (Nat.eqb_spec l (m_vals mo)) as [->|]; [destruct NO; exists m, mo; auto|]. now apply (r_vals _ _ _ _ R).
  Qed.

  (** Writes to a map and to its list. *)
  Lemma rsim_both m mo ys xs t ks l : nth_error h2 m = Some (CMap mo) ->
    rsim (upd (upd h1 (m_vals mo) (CArr ys)) m (CMap (MObj t l (m_vals mo)))) (upd (upd h2 (m_vals mo) (CArr xs)) m (CMap (MObj t ks (m_vals mo))))
      (nput ns m l) (lput vs m ys).
  Proof.
    intros H. destruct (vals_arr _ _ H) as [zs Hz]. pose proof (nth_error_lt _ _ _ Hz) as Lv. pose proof (nth_error_lt _ _ _ H) as Lm.
    assert (Nmv : m_vals mo <> m) by congruence. pose proof (r_len _ _ _ _ R) as L.
    assert (E2 : forall x, nth_error (upd (upd h2 (m_vals mo) (CArr xs)) m (CMap (MObj t ks (m_vals mo)))) x
      = if Nat.eqb m x then Some (CMap (MObj t ks (m_vals mo))) else if Nat.eqb (m_vals mo) x then Some (CArr xs) else nth_error h2 x).
    { intros x. rewrite nth_error_upd by (now rewrite upd_length). destruct (Nat.eqb m x); auto. now rewrite nth_error_upd. }
    assert (E1 : forall x, nth_error (upd (upd h1 (m_vals mo) (CArr ys)) m (CMap (MObj t l (m_vals mo)))) x
      = if Nat.eqb m x then Some (CMap (MObj t l (m_vals mo))) else if Nat.eqb (m_vals mo) x then Some (CArr ys) else nth_error h1 x).
    { intros x. rewrite nth_error_upd by (rewrite upd_length; lia). destruct (Nat.eqb m x); auto. rewrite nth_error_upd by lia. auto. }
    split.
    - rewrite !upd_length. exact L.
    - intros x O Nm. rewrite E2 in Nm. rewrite E1, E2. destruct (Nat.eqb_spec m x); [now destruct (Nm (MObj t ks (m_vals mo)))|].
      destruct (Nat.eqb_spec (m_vals mo) x) as [<-|Nx].
      + destruct O. exists m, (MObj t ks (m_vals mo)). rewrite E2, Nat.eqb_refl. auto.
      + apply (r_cell _ _ _ _ R); auto. intros (a & b & A & B). apply O. destruct (Nat.eq_dec m a) as [<-|D].
        * exists m, (MObj t ks (m_vals mo)). rewrite E2, Nat.eqb_refl. split; auto. cbn. congruence.
        * exists a, b. split; auto. rewrite E2. destruct (Nat.eqb_spec m a); [contradiction|]. destruct (Nat.eqb_spec (m_vals mo) a); congruence.
    - intros m' mo' E. rewrite E2 in E. rewrite E1. unfold nput. destruct (Nat.eqb_spec m m') as [<-|D].
      + injection E as <-. now rewrite Nat.eqb_refl.
      + destruct (Nat.eqb_spec (m_vals mo) m'); [discriminate|]. destruct (Nat.eqb_spec m' m); [congruence|]. now apply (r_map _ _ _ _ R).
    - intros m' mo' E. rewrite E2 in E. rewrite E1. unfold lput. destruct (Nat.eqb_spec m m') as [<-|D].
      + injection E as <-. cbn [m_vals]. rewrite !Nat.eqb_refl. destruct (Nat.eqb_spec m (m_vals mo)); congruence.
      + destruct (Nat.eqb_spec (m_vals mo) m'); [discriminate|]. destruct (Nat.eqb_spec m' m); [congruence|].
        destruct (vals_arr _ _ E) as [us Hu]. destruct (Nat.eqb_spec m (m_vals mo')); [congruence|].
        destruct (Nat.eqb_spec (m_vals mo) (m_vals mo')) as [Q|_]; [destruct D; apply (inv_own _ I _ _ _ _ H E Q)|]. now apply (r_vals _ _ _ _ R).
  Qed.

  Lemma rsim_new_map :
    rsim ((h1 ++ [CArr []]) ++ [CMap (MObj [] [] (length h1))]) ((h2 ++ [CArr []]) ++ [CMap (MObj [] [] (length h2))])
        (nput ns (Datatypes.S (length h2)) []) (lput vs (Datatypes.S (length h2)) []).
  Proof.
    pose proof (r_len _ _ _ _ R) as L. rewrite L. assert (L2 : length (h2 ++ [CArr []]) = Datatypes.S (length h2)) by (rewrite app_length; cbn; lia).
    assert (L1 : length (h1 ++ [CArr []]) = Datatypes.S (length h2)) by (rewrite app_length; cbn; lia).
    assert (G : forall (h : heap) x, length h = length h2 ->
      nth_error ((h ++ [CArr []]) ++ [CMap (MObj [] [] (length h2))]) x
      = if Nat.ltb x (Datatypes.S (length h2)) then (if Nat.ltb x (length h2) then nth_error h x else if Nat.eqb x (length h2) then Some (CArr []) else None)
        else if Nat.eqb x (Datatypes.S (length h2)) then Some (CMap (MObj [] [] (length h2))) else None).
    { intros h x E. rewrite nth_error_alloc. rewrite app_length, E, Nat.add_1_r. rewrite nth_error_alloc, E. reflexivity. }
    assert (OM : forall m mo, nth_error ((h2 ++ [CArr []]) ++ [CMap (MObj [] [] (length h2))]) m = Some (CMap mo) ->
      nth_error h2 m = Some (CMap mo) \/ (m = Datatypes.S (length h2) /\ mo = MObj [] [] (length h2))).
    { intros m mo H. rewrite G in H by auto. destruct (Nat.ltb m (Datatypes.S _)).
      - destruct (Nat.ltb m (length h2)); auto. destruct (Nat.eqb m (length h2)); discriminate.
      - destruct (Nat.eqb_spec m (Datatypes.S (length h2))); [|discriminate]. inversion H. auto. }
    split.
    - rewrite !app_length. cbn. lia.
    - intros x O Nm. rewrite G in Nm by auto. rewrite !G by auto. destruct (Nat.ltb x (Datatypes.S _)); auto.
      destruct (Nat.ltb_spec x (length h2)) as [Q|Q]; auto. apply (r_cell _ _ _ _ R); auto.
      intros (m & mo & Hm & E). apply O. exists m, mo. split; auto. now do 2 apply nth_error_alloc_old.
    - intros m mo H. unfold nput. destruct (OM _ _ H) as [H0|[-> ->]].
      + pose proof (nth_error_lt _ _ _ H0). destruct (Nat.eqb_spec m (Datatypes.S (length h2))); [lia|]. do 2 apply nth_error_alloc_old. now apply (r_map _ _ _ _ R).
      + rewrite G by auto. rewrite !Nat.eqb_refl, Nat.ltb_irrefl. reflexivity.
    - intros m mo H. unfold lput. destruct (OM _ _ H) as [H0|[-> ->]].
      + pose proof (nth_error_lt _ _ _ H0). destruct (Nat.eqb_spec m (Datatypes.S (length h2))); [lia|]. do 2 apply nth_error_alloc_old. now apply (r_vals _ _ _ _ R).
      + cbn [m_vals]. rewrite G by auto. rewrite !Nat.eqb_refl, Nat.ltb_irrefl. destruct (Nat.ltb_spec (length h2) (Datatypes.S (length h2))); [reflexivity|lia].
  Qed.
End Rsim.

Lemma upd_swap {A} (l : list A) a b (x y : A) : a <> b -> upd (upd l a x) b y = upd (upd l b y) a x.
Proof. revert a b. induction l as [|z l IH]; intros [|a] [|b] N; cbn; auto; [congruence|]. f_equal. apply IH. congruence. Qed.

Lemma set_map_run h m mo v l k o : nth_error h m = Some (CMap mo) -> v = m_vals mo -> nth_error h v = Some (CArr l) ->
  forall d, (forall k, tbl_get (m_tbl mo) k = dict_get d k) ->
  map_setInternal m k o h = Ok (tt, upd (upd h v (CArr (values_set d k o (m_keys mo) l))) m
                                      (CMap (MObj (tbl_put (m_tbl mo) k o) (names_set d k (m_keys mo)) v))).
Proof.
  intros H -> V d T. pose proof (nth_error_lt _ _ _ H) as L. unfold map_setInternal. rewrite (proj2 (rd_map_iff _ _ _) H).
  unfold values_set, names_set, is_new. unfold has_key. rewrite T. unfold dict_has.
  destruct (negb _ || _).
  - unfold bind. rewrite (app_run _ _ _ _ V), wr_ok by (now rewrite upd_length). reflexivity.
  - rewrite find_position. destruct (key_position (m_keys mo) k) as [n|].
    + unfold bind. destruct (set_nat_run h _ _ n o V) as [e ->]. rewrite wr_ok by (now rewrite upd_length). reflexivity.
    + rewrite (upd_same h _ _ V). rewrite wr_ok by auto. reflexivity.
Qed.
Lemma remove_map_run h m mo v l k : nth_error h m = Some (CMap mo) -> v = m_vals mo -> nth_error h v = Some (CArr l) -> v <> m ->
  forall d, (forall k, tbl_get (m_tbl mo) k = dict_get d k) ->
  exists r, map_RemoveKey m k h = Ok (r, upd (upd h v (CArr (remove_at d k (m_keys mo) l))) m
                                      (CMap (MObj (if dict_has d k then tbl_del (m_tbl mo) k else m_tbl mo) (remove_at d k (m_keys mo) (m_keys mo)) v)))
    /\ OFlag (fst r) (match snd r with Some _ => true | None => false end)
       = (if dict_has d k then OFlag true (match key_position (m_keys mo) k with Some _ => false | None => true end) else OFlag false true).
Proof.
  intros H -> V N d T. pose proof (nth_error_lt _ _ _ H) as L. unfold map_RemoveKey. rewrite (proj2 (rd_map_iff _ _ _) H).
  unfold remove_at, has_key. rewrite T. unfold dict_has. destruct (dict_get d k) as [o|]; cbn [negb].
  - rewrite find_position. destruct (key_position (m_keys mo) k) as [n|].
    + unfold bind. rewrite wr_ok by auto. set (h' := upd h m _).
      assert (V' : nth_error h' (m_vals mo) = Some (CArr l)).
      { unfold h'. rewrite nth_error_upd by auto. destruct (Nat.eqb_spec m (m_vals mo)); congruence. }
      destruct (rem_nat_run h' _ _ n V') as [e ->]. unfold ret. exists (true, None). split; [|reflexivity].
      unfold h'. rewrite upd_swap by auto. rewrite remove_nth_list_remove. reflexivity.
    + unfold bind. rewrite wr_ok by auto. rewrite (upd_same h _ _ V). exists (true, Some EKeyArr). split; reflexivity.
  - exists (false, Some EKeyMap). rewrite (upd_same h _ _ V). split; [|reflexivity]. f_equal. f_equal. symmetry. apply upd_same. rewrite H. now destruct mo.
Qed.

Lemma rsim_same h1 h2 ns vs ns' vs' : (forall l, ns l = ns' l) -> (forall l, vs l = vs' l) -> rsim h1 h2 ns vs -> rsim h1 h2 ns' vs'.
Proof. intros E F [A B C D]. split; auto; intros; rewrite <- ?E, <- ?F; auto. Qed.

Section Both.
  Context {h1 h2 : heap} {ns : names} {vs : lists} (I : Inv h2) (R : rsim h1 h2 ns vs).

  Lemma set_rsim m mo d k o : nth_error h2 m = Some (CMap mo) -> map_holds h2 mo d ->
    exists h1' h2', map_setInternal m k o h1 = Ok (tt, h1') /\ map_setInternal m k o h2 = Ok (tt, h2')
      /\ rsim h1' h2' (nput ns m (names_set d k (ns m))) (lput vs m (values_set d k o (ns m) (vs m))).
  Proof.
    intros H (Ek & Ev & Dk & T). pose proof (r_map _ _ _ _ R _ _ H) as H1. pose proof (r_vals _ _ _ _ R _ _ H) as V1.
    do 2 eexists. split; [apply (set_map_run h1 m _ (m_vals mo) _ k o H1 eq_refl V1 d T)|].
    split; [apply (set_map_run h2 m _ (m_vals mo) _ k o H eq_refl Ev d T)|]. cbn [m_tbl m_keys m_vals]. now apply rsim_both.
  Qed.
  Lemma remove_rsim m mo d k : nth_error h2 m = Some (CMap mo) -> map_holds h2 mo d ->
    exists r h1' r2 h2', map_RemoveKey m k h1 = Ok (r, h1') /\ map_RemoveKey m k h2 = Ok (r2, h2')
      /\ OFlag (fst r) (match snd r with Some _ => true | None => false end)
         = (if dict_has d k then OFlag true (match key_position (ns m) k with Some _ => false | None => true end) else OFlag false true)
      /\ rsim h1' h2' (nput ns m (remove_at d k (ns m) (ns m))) (lput vs m (remove_at d k (ns m) (vs m))).
  Proof.
    intros H (Ek & Ev & Dk & T). pose proof (r_map _ _ _ _ R _ _ H) as H1. pose proof (r_vals _ _ _ _ R _ _ H) as V1.
    assert (N : m_vals mo <> m) by congruence.
    destruct (remove_map_run h1 m _ (m_vals mo) _ k H1 eq_refl V1 N d T) as (r & E1 & F1).
    destruct (remove_map_run h2 m _ (m_vals mo) _ k H eq_refl Ev N d T) as (r2 & E2 & F2).
    do 4 eexists. split; [exact E1|]. split; [exact E2|]. split; [exact F1|]. cbn [m_tbl m_keys m_vals]. now apply rsim_both.
  Qed.
End Both.

Lemma call_rsim h1 h2 w ns vs c : Inv h2 -> impl h2 w -> rsim h1 h2 ns vs -> ok_call w c ->
  exists h1' h2', run_call c h1 = Ok (result_of c w ns vs, h1') /\ run_call c h2 = Ok (fst (spec_call c w), h2')
    /\ Inv h2' /\ impl h2' (snd (spec_call c w)) /\ rsim h1' h2' (names_after c w ns) (values_after c w ns vs).
Proof.
  intros I P S K. destruct (run_call_ok h2 w c I P K) as (h2' & E & I' & _ & P').
  assert (G : forall h1', run_call c h1 = Ok (result_of c w ns vs, h1') -> rsim h1' h2' (names_after c w ns) (values_after c w ns vs) ->
    exists h1' h2', run_call c h1 = Ok (result_of c w ns vs, h1') /\ run_call c h2 = Ok (fst (spec_call c w), h2')
      /\ Inv h2' /\ impl h2' (snd (spec_call c w)) /\ rsim h1' h2' (names_after c w ns) (values_after c w ns vs)).
  { intros h1' A B. exists h1', h2'. auto. }
  clear I' P'. pose proof (r_len _ _ _ _ S) as L.
  assert (RM : forall m mo, nth_error h2 m = Some (CMap mo) -> rd_map h1 m = Ok (MObj (m_tbl mo) (ns m) (m_vals mo)) /\ rd_map h2 m = Ok mo).
  { intros m mo H. split; apply rd_map_iff; auto. apply (r_map _ _ _ _ S _ _ H). }
  assert (RA : forall a, has (w_arr w) a ->
    nth_error h1 a = Some (CArr (arr_at w a)) /\ nth_error h2 a = Some (CArr (arr_at w a)) /\ ~ owned h2 a).
  { intros a H. destruct (has_arr _ _ _ P H) as [Ha N]. split; auto. rewrite (r_cell _ _ _ _ S); auto. congruence. }
  destruct c; cbn [ok_call] in K; cbn [names_after values_after result_of] in *; cbn [run_call] in E.
  - (* ANewVar *) inversion E; subst. apply (G (h1 ++ [CPtr s])).
    + cbn. unfold bind, alloc, ret. now rewrite L, (im_next _ _ P).
    + apply rsim_alloc; auto; discriminate.
  - (* AVarSet *) destruct K as (s0 & Hs & T). apply (im_var _ _ P) in Hs.
    pose proof (nth_error_lt _ _ _ Hs) as Lp. unfold bind in E. rewrite wr_ok in E by auto. inversion E; subst.
    apply (G (upd h1 p (CPtr s))).
    + cbn. unfold bind. rewrite wr_ok by lia. reflexivity.
    + eapply rsim_upd; eauto; try discriminate. intros (m & mo & Hm & Em). destruct (vals_arr I _ _ Hm) as [xs Hx]. congruence.
  - (* AVarGet *) destruct K as [s Hs]. apply (im_var _ _ P) in Hs. pose proof (rsim_other I S _ _ Hs ltac:(discriminate) ltac:(discriminate)) as H1.
    unfold bind, mlift in E. rewrite (proj2 (rd_ptr_iff _ _ _) Hs) in E. inversion E; subst.
    apply (G h1); auto. cbn [run_call]. unfold bind, mlift. rewrite (proj2 (rd_ptr_iff _ _ _) H1). cbn [rbind]. unfold ret. f_equal.
  - (* ANewValue *) inversion E; subst. apply (G (h1 ++ [CVal i])).
    + cbn. unfold bind, new_value, alloc, ret. now rewrite L, (im_next _ _ P).
    + apply rsim_alloc; auto; discriminate.
  - (* ANewArray *) inversion E; subst. apply (G (h1 ++ [CArr []])).
    + cbn. unfold bind, new_array, alloc, ret. now rewrite L, (im_next _ _ P).
    + apply rsim_alloc; auto; discriminate.
  - (* ANewMap *) unfold bind in E. rewrite new_map_eq in E. unfold ret in E. injection E as Eo Eh. subst h2'.
    apply (G ((h1 ++ [CArr []]) ++ [CMap (MObj [] [] (length h1))])).
    + cbn [run_call]. unfold bind. rewrite new_map_eq. cbn. now rewrite L, (im_next _ _ P).
    + rewrite (im_next _ _ P). now apply rsim_new_map.
  - (* AMapSetValue *) destruct K as [Km Ko]. pose proof (has_map _ _ _ P Km) as (mo & Hm & D).
    destruct (set_rsim I S m mo _ k o Hm D) as (h1' & h2'' & E1 & E2 & S').
    unfold bind, map_SetValue in E. rewrite E2 in E. inversion E; subst.
    apply (G h1'); auto. cbn [run_call]. unfold bind, map_SetValue. now rewrite E1.
  - (* AMapSet *) destruct K as [Km Ko]. pose proof (has_map _ _ _ P Km) as D.
    assert (D1 : map_dict (h2 ++ [CVal i]) m (map_at w m)) by (apply map_dict_alloc; auto; discriminate).
    destruct D1 as (mo & Hm & D1).
    assert (S1 : rsim (h1 ++ [CVal i]) (h2 ++ [CVal i]) ns vs) by (apply rsim_alloc; auto; discriminate).
    assert (I1 : Inv (h2 ++ [CVal i])) by (apply (Inv_alloc h2 (CVal i) I); cbn; now apply (ok_object_impl h2 w)).
    destruct (set_rsim I1 S1 m mo _ k (Some (length h2)) Hm D1) as (h1' & h2'' & E1 & E2 & S').
    unfold map_SetObject, new_value, bind, alloc in E; cbv beta iota in E. rewrite E2 in E. inversion E; subst.
    apply (G h1').
    + cbn [run_call]. unfold map_SetObject, new_value, bind, alloc; cbv beta iota. now rewrite L, E1.
    + now rewrite (im_next _ _ P).
  - (* AMapSetScalarValue *) pose proof (has_map _ _ _ P K) as D.
    set (c1 := CPtr s) in *. set (c2 := CVal (IPtr (stype_of s) (Some (length h2)))) in *.
    assert (I1 : Inv (h2 ++ [c1])) by (apply (Inv_alloc h2 c1 I Logic.I)).
    assert (I2 : Inv ((h2 ++ [c1]) ++ [c2])).
    { apply (Inv_alloc _ c2 I1). cbn. exists s. split; auto. rewrite nth_error_app2, Nat.sub_diag by lia. reflexivity. }
    assert (D1 : map_dict ((h2 ++ [c1]) ++ [c2]) m (map_at w m)).
    { apply map_dict_alloc; [exact I1|unfold c2; discriminate|].
      apply map_dict_alloc; auto. unfold c1. discriminate. }
    destruct D1 as (mo & Hm & D1).
    assert (S1 : rsim ((h1 ++ [c1]) ++ [c2]) ((h2 ++ [c1]) ++ [c2]) ns vs).
    { apply rsim_alloc; [apply rsim_alloc|]; auto; (unfold c1, c2; discriminate). }
    destruct (set_rsim I2 S1 m mo _ k (Some (length (h2 ++ [c1]))) Hm D1) as (h1' & h2'' & E1 & E2 & S').
    unfold map_SetScalarValue, map_SetObject, new_value, bind, alloc in E; cbv beta iota in E.
    fold c1 in E. fold c2 in E. rewrite E2 in E. inversion E; subst.
    apply (G h1').
    + cbn [run_call]. unfold map_SetScalarValue, map_SetObject, new_value, bind, alloc; cbv beta iota.
      replace (length h1) with (length h2). fold c1. fold c2.
      replace (length (h1 ++ [c1])) with (length (h2 ++ [c1])) by (rewrite !app_length; lia). now rewrite E1.
    + rewrite (im_next _ _ P). replace (Datatypes.S (length h2)) with (length (h2 ++ [c1])) by (rewrite app_length; cbn; lia). exact S'.
  - (* AMapRemoveKey *) pose proof (has_map _ _ _ P K) as (mo & Hm & D).
    destruct (remove_rsim I S m mo _ k Hm D) as (r & h1' & r2 & h2'' & E1 & E2 & F & S').
    unfold bind in E. rewrite E2 in E. unfold ret in E. injection E as Eo Eh. subst h2''.
    apply (G h1'); auto. cbn [run_call]. unfold bind. rewrite E1. unfold ret. rewrite <- F. reflexivity.
  - pose proof (has_map _ _ _ P K) as (mo & Hm & D). destruct (RM _ _ Hm) as [R1 R2].
    unfold bind, mlift, map_HasKey in E. rewrite R2 in E. cbn in E. injection E as Eo Eh. subst h2'.
    apply (G h1); auto. cbn [run_call]. unfold bind, mlift, map_HasKey. rewrite R1. cbn. rewrite <- Eo. reflexivity.
  - pose proof (has_map _ _ _ P K) as (mo & Hm & D). destruct (RM _ _ Hm) as [R1 R2].
    unfold bind, mlift, map_GetValue in E. rewrite R2 in E. cbn in E. injection E as Eo Eh. subst h2'.
    apply (G h1); auto. cbn [run_call]. unfold bind, mlift, map_GetValue. rewrite R1. cbn. now rewrite Eo.
  - pose proof (has_map _ _ _ P K) as (mo & Hm & D). destruct (RM _ _ Hm) as [R1 R2].
    unfold bind, mlift, map_GetKeys in E. rewrite R2 in E. cbn in E. injection E as Eo Eh. subst h2'.
    apply (G h1); auto. cbn [run_call]. unfold bind, mlift, map_GetKeys. now rewrite R1.
  - pose proof (has_map _ _ _ P K) as (mo & Hm & D). destruct (RM _ _ Hm) as [R1 R2]. destruct D as (_ & Ev & _).
    unfold bind, mlift, map_Values, arr_GetValues in E. rewrite R2 in E. cbn [rbind] in E. rewrite (proj2 (rd_arr_iff _ _ _) Ev) in E.
    injection E as Eh. subst h2'. apply (G h1); auto. cbn [run_call]. unfold bind, mlift, map_Values, arr_GetValues. rewrite R1. cbn [rbind m_vals].
    now rewrite (proj2 (rd_arr_iff _ _ _) (r_vals _ _ _ _ S _ _ Hm)).
  - (* AArrAppendValue *) destruct K as [Ka Ko]. destruct (RA _ Ka) as (H1 & H2 & N).
    unfold bind in E. rewrite (app_run _ _ _ _ H2) in E. inversion E; subst.
    apply (G (upd h1 a (CArr (arr_at w a ++ [o])))).
    + cbn [run_call]. unfold bind. now rewrite (app_run _ _ _ _ H1).
    + eapply rsim_upd; eauto; discriminate.
  - (* AArrAppend *) destruct K as [Ka Ko]. destruct (RA _ Ka) as (H1 & H2 & N).
    assert (S1 : rsim (h1 ++ [CVal i]) (h2 ++ [CVal i]) ns vs) by (apply rsim_alloc; auto; discriminate).
    unfold arr_AppendObject, new_value, bind, alloc in E; cbv beta iota in E.
    rewrite (app_run _ _ _ _ (nth_error_alloc_old _ _ _ _ H2)) in E. inversion E; subst.
    apply (G (upd (h1 ++ [CVal i]) a (CArr (arr_at w a ++ [Some (length h2)])))).
    + cbn [run_call]. unfold arr_AppendObject, new_value, bind, alloc; cbv beta iota.
      now rewrite (app_run _ _ _ _ (nth_error_alloc_old _ _ _ _ H1)), L.
    + eapply rsim_upd; [exact S1|apply nth_error_alloc_old; exact H2|discriminate|discriminate|]. rewrite owned_alloc; auto. discriminate.
  - (* AArrSetValueAtIndex *) destruct K as [Ka Ko]. destruct (RA _ Ka) as (H1 & H2 & N).
    unfold bind in E. rewrite (set_run _ _ _ _ _ H2) in E. cbn [spec_call] in *.
    destruct (valid_index (arr_at w a) n) eqn:V; inversion E; subst.
    + apply (G (upd h1 a (CArr (list_set (arr_at w a) (Z.to_nat n) o)))).
      * cbn [run_call]. unfold bind. now rewrite (set_run _ _ _ _ _ H1), V.
      * eapply rsim_upd; eauto; discriminate.
    + apply (G h1); auto. cbn [run_call]. unfold bind. now rewrite (set_run _ _ _ _ _ H1), V.
  - destruct (RA _ K) as (H1 & H2 & N).
    unfold bind in E. rewrite (rem_run _ _ _ _ H2) in E. cbn [spec_call] in *.
    destruct (valid_index (arr_at w a) n) eqn:V; inversion E; subst.
    + apply (G (upd h1 a (CArr (list_remove (arr_at w a) (Z.to_nat n))))).
      * cbn [run_call]. unfold bind. now rewrite (rem_run _ _ _ _ H1), V.
      * eapply rsim_upd; eauto; discriminate.
    + apply (G h1); auto. cbn [run_call]. unfold bind. now rewrite (rem_run _ _ _ _ H1), V.
  - destruct (RA _ K) as (H1 & H2 & N).
    unfold bind, mlift, arr_Len in E. rewrite (proj2 (rd_arr_iff _ _ _) H2) in E. cbn in E. inversion E; subst.
    apply (G h1); auto. cbn [run_call]. unfold bind, mlift, arr_Len. now rewrite (proj2 (rd_arr_iff _ _ _) H1).
  - destruct (RA _ K) as (H1 & H2 & N).
    unfold bind, mlift, arr_GetValues in E. rewrite (proj2 (rd_arr_iff _ _ _) H2) in E. cbn in E. inversion E; subst.
    apply (G h1); auto. cbn [run_call]. unfold bind, mlift, arr_GetValues. now rewrite (proj2 (rd_arr_iff _ _ _) H1).
  - (* AValSetObject *) destruct K as [Kv Ko]. pose proof (has_val _ _ _ P Kv) as H2. pose proof (nth_error_lt _ _ _ H2) as Lv.
    pose proof (rsim_other I S _ _ H2 ltac:(discriminate) ltac:(discriminate)) as H1.
    unfold bind, value_SetObject in E. rewrite (proj2 (rd_val_iff _ _ _) H2), wr_ok in E by auto. inversion E; subst.
    apply (G (upd h1 v (CVal i))).
    + cbn [run_call]. unfold bind, value_SetObject. rewrite (proj2 (rd_val_iff _ _ _) H1), wr_ok by lia. reflexivity.
    + eapply rsim_upd; eauto; try discriminate. intros (m & mo & Hm & Em). destruct (vals_arr I _ _ Hm) as [xs Hx]. congruence.
  - (* AValGetObject *) pose proof (has_val _ _ _ P K) as H2. pose proof (rsim_other I S _ _ H2 ltac:(discriminate) ltac:(discriminate)) as H1.
    unfold bind, mlift, value_GetObject in E. rewrite (proj2 (rd_val_iff _ _ _) H2) in E. cbn in E. inversion E; subst.
    apply (G h1); auto. cbn [run_call]. unfold bind, mlift, value_GetObject. now rewrite (proj2 (rd_val_iff _ _ _) H1).
Qed.

Lemma relabel_rsim h1 h2 w ns vs s ss : Inv h2 -> impl h2 w -> rsim h1 h2 ns vs -> ok_relabels (s :: ss) w ns vs ->
  exists h1' h2', run_relabel s h1 = Ok (fst (fst (fst (spec_relabel s w ns vs))), h1')
    /\ run_calls (without_writes [s]) h2 = Ok (fst (spec_calls (without_writes [s]) w), h2')
    /\ snd (fst (fst (spec_relabel s w ns vs))) = snd (spec_calls (without_writes [s]) w)
    /\ Inv h2' /\ impl h2' (snd (fst (fst (spec_relabel s w ns vs))))
    /\ rsim h1' h2' (snd (fst (spec_relabel s w ns vs))) (snd (spec_relabel s w ns vs)).
Proof.
  intros I P R [K _]. destruct s as [c|m i k].
  - destruct (call_rsim h1 h2 w ns vs c I P R K) as (h1' & h2' & E1 & E2 & I' & P' & R'). exists h1', h2'.
    cbn [run_relabel spec_relabel fst snd without_writes flat_map app run_calls spec_calls]. destruct (spec_call c w) as [o w1]. cbn [fst snd] in *.
    split; [exact E1|]. split; [unfold bind; now rewrite E2|]. auto.
  - destruct K as [Hm Li]. destruct (has_map _ _ _ P Hm) as (mo & Em & (Ek & Ev & D)). pose proof (r_map _ _ _ _ R _ _ Em) as E1.
    pose proof (r_vals _ _ _ _ R _ _ Em) as V1.
    exists (upd h1 m (CMap (MObj (m_tbl mo) (upd (ns m) i k) (m_vals mo)))), h2. cbn [run_relabel spec_relabel fst snd without_writes flat_map app run_calls spec_calls].
    split; [|split; [reflexivity|split; [reflexivity|split; [exact I|split; [exact P|]]]]].
    + unfold run_write. rewrite (proj2 (rd_map_iff _ _ _) E1). cbn [m_keys m_tbl m_vals]. apply Nat.ltb_lt in Li. rewrite Li.
      unfold bind. rewrite wr_ok by (now apply nth_error_lt in E1). reflexivity.
    + rewrite (upd_list_set (ns m)).
      pose proof (rsim_both I R m mo (vs m) (dict_values (map_at w m)) (m_tbl mo) (m_keys mo) (list_set (ns m) i k) Em) as Q.
      rewrite (upd_same h1 _ _ V1), (upd_same h2 _ _ Ev) in Q. rewrite (upd_same h2 m) in Q by (rewrite Em; now destruct mo).
      eapply rsim_same; [reflexivity| |exact Q]. intros l. unfold lput. destruct (Nat.eqb_spec l m); congruence.
Qed.
Lemma relabels_rsim ss : forall h1 h2 w ns vs, Inv h2 -> impl h2 w -> rsim h1 h2 ns vs -> ok_relabels ss w ns vs ->
  exists h1' h2', run_relabels ss h1 = Ok (fst (fst (fst (spec_relabels ss w ns vs))), h1')
    /\ run_calls (without_writes ss) h2 = Ok (fst (spec_calls (without_writes ss) w), h2')
    /\ snd (fst (fst (spec_relabels ss w ns vs))) = snd (spec_calls (without_writes ss) w)
    /\ Inv h2' /\ impl h2' (snd (fst (fst (spec_relabels ss w ns vs))))
    /\ rsim h1' h2' (snd (fst (spec_relabels ss w ns vs))) (snd (spec_relabels ss w ns vs)).
Proof.
  induction ss as [|s ss IH]; intros h1 h2 w ns vs I P R K.
  - exists h1, h2. cbn. auto 8.
  - destruct (relabel_rsim h1 h2 w ns vs s ss I P R K) as (h1' & h2' & E1 & E2 & W & I' & P' & R').
    cbn [ok_relabels] in K. destruct K as [K1 K2].
    cbn [run_relabels spec_relabels]. destruct (spec_relabel s w ns vs) as [[[o w1] ns1] vs1] eqn:Q. cbn [fst snd] in *.
    destruct (IH h1' h2' w1 ns1 vs1 I' P' R' K2) as (h1'' & h2'' & F1 & F2 & W2 & I2 & P2 & R2).
    destruct (spec_relabels ss w1 ns1 vs1) as [[[os w2] ns2] vs2] eqn:Q2. cbn [fst snd] in *.
    exists h1'', h2''. unfold bind. rewrite E1, F1.
    assert (C : without_writes (s :: ss) = without_writes [s] ++ without_writes ss).
    { unfold without_writes. cbn [flat_map]. now rewrite app_nil_r. }
    rewrite C, spec_calls_app, <- W. cbn [fst snd]. split; [reflexivity|].
    split; [now apply (run_calls_app _ _ _ _ h2')|]. auto.
Qed.
Lemma ok_without ss : forall w ns vs, ok_relabels ss w ns vs -> ok_calls (without_writes ss) w.
Proof.
  induction ss as [|s ss IH]; intros w ns vs K; [exact Logic.I|]. cbn [ok_relabels] in K. destruct K as [K1 K2]. destruct s as [c|m i k].
  - change (without_writes (Rcall c :: ss)) with (c :: without_writes ss). split; [exact K1|]. cbn [spec_relabel] in K2. eapply IH; exact K2.
  - change (without_writes (Rwrite m i k :: ss)) with (without_writes ss). cbn [spec_relabel] in K2. eapply IH; exact K2.
Qed.

(** ** Readers *)
Lemma getter_rsim X h1 h2 ns vs m k g : Inv h2 -> rsim h1 h2 ns vs -> has (w_map (view h2)) m -> run_getter g X h1 m k = run_getter g X h2 m k.
Proof.
  intros I R Hm. pose proof (view_impl _ I) as P. destruct (has_map _ _ _ P Hm) as (mo & H & D).
  pose proof (proj2 (rd_map_iff _ _ _) H) as R2. pose proof (proj2 (rd_map_iff _ _ _) (r_map _ _ _ _ R _ _ H)) as R1.
  eapply (run_getter_agree X h2 h1 I (rsim_agree I R) g m m k (match tbl_get (m_tbl mo) k with Some o => o | None => None end)).
  - unfold map_HasKey. now rewrite R1, R2.
  - unfold map_GetValue. now rewrite R2.
  - unfold map_GetValue. now rewrite R1.
  - destruct D as (_ & Hv & _ & T). rewrite T. destruct (dict_get (map_at (view h2) m) k) as [o|] eqn:Dk; [|exact Logic.I].
    pose proof (inv_arr _ I _ _ Hv) as F. rewrite Forall_forall in F. apply F. unfold dict_values.
    apply dict_get_In in Dk. change o with (snd (k, o)). now apply in_map.
Qed.

Section Read.
  Context (X : ext) {h1 h2 : heap} {ns : names} {vs : lists} (I : Inv h2) (R : rsim h1 h2 ns vs).
  Context (U : nat -> Prop) (C : as_held (view h2) ns U).

  Lemma held_map m mo : nth_error h2 m = Some (CMap mo) -> U m ->
    rd_map h1 m = Ok mo /\ forall k, ok_oloc h2 (match tbl_get (m_tbl mo) k with Some o => o | None => None end)
      /\ handle_inside U (match tbl_get (m_tbl mo) k with Some o => o | None => None end).
  Proof.
    intros Hm Um. pose proof (view_impl _ I) as P. destruct (inv_map _ I _ _ Hm) as [d D].
    assert (W : w_map (view h2) m = Some d) by (apply (im_map _ _ P); exists mo; auto).
    destruct (proj1 C _ _ Um W) as [E F]. destruct D as (Ek & Ev & Dk & T). split.
    - apply rd_map_iff. rewrite (r_map _ _ _ _ R _ _ Hm), E, <- Ek. now destruct mo.
    - intros k. rewrite T. destruct (dict_get d k) as [o|] eqn:Dk2; [|split; exact Logic.I].
      assert (In o (dict_values d)) by (apply dict_get_In in Dk2; unfold dict_values; change o with (snd (k, o)); now apply in_map).
      rewrite Forall_forall in F. split; auto. pose proof (inv_arr _ I _ _ Ev) as G. rewrite Forall_forall in G. auto.
  Qed.
  Lemma held_conv f : forall i, ok_iface h2 i -> inside U i -> conv_json f X h1 i = conv_json f X h2 i.
  Proof.
    induction f as [|f IH]; intros i O Ui; [reflexivity|]. pose proof (view_impl _ I) as P.
    assert (OV : forall o, ok_oloc h2 o -> handle_inside U o -> conv_json f X h1 (IPVal o) = conv_json f X h2 (IPVal o)).
    { intros [v|] Ho Hu; apply IH; cbn; auto. }
    assert (M : forall m, (exists mo, nth_error h2 m = Some (CMap mo)) -> U m ->
       map_json (conv_json f X h1) X h1 m = map_json (conv_json f X h2) X h2 m).
    { intros m [mo Hm] Um. destruct (held_map _ _ Hm Um) as [R1 Q]. unfold map_json. rewrite R1, (proj2 (rd_map_iff _ _ _) Hm). cbn [rbind].
      rewrite (members_ext X (conv_json f X h1) (conv_json f X h2)); [reflexivity|]. intros k. destruct (Q k). now apply OV. }
    assert (A : forall a, ok_pub_arr h2 a -> U a -> arr_json (conv_json f X h1) h1 a = arr_json (conv_json f X h2) h2 a).
    { intros a [[l Ha] N] Ua. unfold arr_json.
      assert (Ha1 : nth_error h1 a = Some (CArr l)) by (rewrite (r_cell _ _ _ _ R); auto; congruence).
      rewrite (proj2 (rd_arr_iff _ _ _) Ha), (proj2 (rd_arr_iff _ _ _) Ha1). cbn [rbind].
      assert (W : w_arr (view h2) a = Some l) by (apply (im_arr _ _ P); auto). pose proof (proj1 (proj2 C) _ _ Ua W) as F.
      destruct l as [|o l]; auto.
      rewrite (items_ext (fun o => ok_oloc h2 o /\ handle_inside U o) (fun o => conv_json f X h1 (IPVal o)) (fun o => conv_json f X h2 (IPVal o)) (o :: l)); auto.
      - pose proof (inv_arr _ I _ _ Ha) as G. rewrite Forall_forall in *. auto.
      - intros x [Q1 Q2]. auto. }
    assert (T : forall tv, ok_iface h2 tv -> inside U tv ->
       json_held (conv_json f X h1) X h1 tv = json_held (conv_json f X h2) X h2 tv).
    { intros tv Ot Ut. pose proof (agree_deref h2 h1 (rsim_agree I R) tv Ot) as De.
      unfold json_held. destruct (common_GetType X tv); auto; try (now rewrite De);
        destruct tv as [|s|t [p|]|m|[m|]|a|[a|]|v|[v|]|l|l|[l|]|[l|]|s|[s|]|tm|fn|[fn|]|[tm|]|nm [d|]]; auto. }
    cbn [conv_json]. destruct (common_IsNil i) eqn:N; auto.
    destruct i as [|s|t [p|]|m|[m|]|a|[a|]|v|[v|]|l|l|[l|]|[l|]|s|[s|]|tm|fn|[fn|]|[tm|]|nm [d|]]; try discriminate;
      cbn [rbind]; try (now apply T);
      destruct O as [j Hj];
      rewrite (proj2 (rd_val_iff _ _ _) Hj), (proj2 (rd_val_iff _ _ _) (rsim_other I R _ _ Hj ltac:(discriminate) ltac:(discriminate)));
      cbn [rbind]; apply T; [eapply inv_val; eauto|apply (proj2 (proj2 C) v); auto; apply (im_val _ _ P); auto|eapply inv_val; eauto|apply (proj2 (proj2 C) v); auto; apply (im_val _ _ P); auto].
  Qed.
End Read.
