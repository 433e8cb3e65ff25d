(** * Parse with its metrics map behaves as Parse with numbers (proofs for C68) *)
From Coq Require Import Ascii String List NArith ZArith Bool Lia.
From Verif Require Import GoStr StrLemmas GoNum GoFloat Heap Common ValueModel ArrayModel MapModel GetterModel PtrModel
  JsonModel ParserModel MetricsModel SpecDict DictLemmas SpecWorld SpecNum Inv World Reach MapFacts GetterFacts GetterFrame GetterLift GetterMore
  ObjFacts SpecDoc RepFacts TreeParser ParseWorld ParseRefine ParseTop TidyFacts SpecParse SpecMetrics MetricsFacts.
Import ListNotations.

(** ** Values and variables that are never overwritten *)
Definition fixed (c : cell) : Prop := match c with CVal _ | CPtr _ => True | _ => False end.
Definition keeps (h h' : heap) : Prop := forall l c, fixed c -> nth_error h l = Some c -> nth_error h' l = Some c.
Definition mono {A} (x : M A) : Prop := forall h a h', x h = Ok (a, h') -> keeps h h'.

Lemma keeps_refl h : keeps h h.
Proof. intros l c _ E. exact E. Qed.
Lemma keeps_trans h1 h2 h3 : keeps h1 h2 -> keeps h2 h3 -> keeps h1 h3.
Proof. intros A B l c F E. auto. Qed.
Lemma mono_ret {A} (a : A) : mono (ret a).
Proof. intros h x h' E. injection E as <- <-. apply keeps_refl. Qed.
Lemma mono_panic {A} : mono (@mpanic A).
Proof. intros h x h' E. discriminate. Qed.
Lemma mono_lift {A} (f : heap -> res A) : mono (mlift f).
Proof. intros h x h' E. unfold mlift in E. destruct (f h); cbn in E; try discriminate. injection E as <- <-. apply keeps_refl. Qed.
Lemma mono_bind {A B} (x : M A) (f : A -> M B) : mono x -> (forall a, mono (f a)) -> mono (bind x f).
Proof.
  intros Mx Mf h b h' E. unfold bind in E. destruct (x h) as [[a h1]| | |] eqn:Ex; try discriminate.
  eapply keeps_trans; [eapply Mx|eapply Mf]; eauto.
Qed.
Lemma mono_alloc c : mono (alloc c).
Proof. intros h a h' E. injection E as <- <-. intros l d _ H. rewrite nth_error_app1; auto. eapply nth_error_lt; eauto. Qed.
Lemma keeps_wr h l c0 c u h' : nth_error h l = Some c0 -> ~ fixed c0 -> wr l c h = Ok (u, h') -> keeps h h'.
Proof.
  intros E N W j d F H. unfold wr in W. destruct (Nat.ltb_spec l (length h)) as [L|L]; [|discriminate]. injection W as _ <-.
  rewrite nth_error_upd by auto. destruct (Nat.eqb_spec l j) as [<-|Ne]; auto. rewrite E in H. injection H as ->. exfalso; auto.
Qed.
Lemma rd_arr_cell h a l : rd_arr h a = Ok l -> nth_error h a = Some (CArr l).
Proof. unfold rd_arr. destruct (nth_error h a) as [[]|]; try discriminate. now intros [= ->]. Qed.
Lemma rd_map_cell h a l : rd_map h a = Ok l -> nth_error h a = Some (CMap l).
Proof. unfold rd_map. destruct (nth_error h a) as [[]|]; try discriminate. now intros [= ->]. Qed.
Lemma mono_append a o : mono (arr_AppendValue a o).
Proof.
  intros h x h' E. unfold arr_AppendValue in E. destruct (rd_arr h a) eqn:R; try discriminate. apply rd_arr_cell in R.
  eapply keeps_wr; eauto.
Qed.
Lemma wr_kind h l c u h' j m : wr l c h = Ok (u, h') -> (exists x, nth_error h l = Some (CArr x)) ->
  nth_error h j = Some (CMap m) -> nth_error h' j = Some (CMap m).
Proof.
  intros W [x X] H. unfold wr in W. destruct (Nat.ltb_spec l (length h)) as [L|L]; [|discriminate]. injection W as _ <-.
  rewrite nth_error_upd by auto. destruct (Nat.eqb_spec l j) as [<-|Ne]; auto. congruence.
Qed.
Lemma mono_set m k o : mono (map_setInternal m k o).
Proof.
  intros h x h' E. unfold map_setInternal in E. destruct (rd_map h m) as [mo| | |] eqn:R; try discriminate. apply rd_map_cell in R.
  destruct (negb _ || _).
  - unfold bind in E. destruct (arr_AppendValue (m_vals mo) o h) as [[[] h1]| | |] eqn:A; try discriminate.
    eapply keeps_trans; [eapply mono_append; eauto|]. refine (keeps_wr _ _ (CMap mo) _ _ _ _ (fun f => f) E).
    unfold arr_AppendValue in A. destruct (rd_arr h (m_vals mo)) eqn:Ra; try discriminate. apply rd_arr_cell in Ra.
    eapply wr_kind; eauto.
  - destruct (find_index k (m_keys mo)) as [n|].
    + unfold bind in E. destruct (arr_SetValueAtIndex (m_vals mo) (Z.of_nat n) o h) as [[r h1]| | |] eqn:A; try discriminate.
      unfold arr_SetValueAtIndex in A. destruct (rd_arr h (m_vals mo)) eqn:Ra; try discriminate. apply rd_arr_cell in Ra.
      destruct (Z.of_nat n <? 0)%Z; [injection A as _ <-; exact (keeps_wr _ _ (CMap mo) _ _ _ R (fun f => f) E)|].
      destruct (_ <? _)%Z; [injection A as _ <-; exact (keeps_wr _ _ (CMap mo) _ _ _ R (fun f => f) E)|].
      unfold bind in A. destruct (wr (m_vals mo) _ h) as [[u h2]| | |] eqn:W; try discriminate. cbn in A. injection A as _ <-.
      eapply keeps_trans; [exact (keeps_wr _ _ _ _ _ _ Ra (fun f => f) W)|]. refine (keeps_wr _ _ (CMap mo) _ _ _ _ (fun f => f) E).
      eapply wr_kind; eauto.
    + exact (keeps_wr _ _ (CMap mo) _ _ _ R (fun f => f) E).
Qed.

Ltac mono_tac :=
  repeat first
    [ apply mono_ret | apply mono_panic | apply mono_lift | apply mono_alloc | apply mono_append | apply mono_set
    | apply mono_bind; [|intros] | progress unfold map_SetObject, map_SetScalarValue, map_SetArrayValue, map_SetValue, arr_AppendObject, new_value, new_map, new_array
    | match goal with |- mono (match ?x with _ => _ end) => destruct x end
    | match goal with |- mono (if ?x then _ else _) => destruct x end ].

Lemma mono_value X k v ls : mono (parseJSONValue X k v ls).
Proof. unfold parseJSONValue, store_payload. mono_tac. Qed.
Lemma mono_next X md ls : mono (next_mode X md ls).
Proof. unfold next_mode. mono_tac. Qed.
Lemma mono_attach X ls tk f g : (forall t k, mono (f t k)) -> (forall t, mono (g t)) -> mono (attach X ls tk f g).
Proof. intros F G. unfold attach. mono_tac; auto. Qed.
Lemma mono_end X p st : mono (end_value X p st).
Proof. unfold end_value. apply mono_bind; [apply mono_value|intros e]. apply mono_bind; [mono_tac|intros l]. apply mono_bind; [apply mono_next|intros]. apply mono_ret. Qed.
Lemma mono_step_mode X q b st : mono (step_mode X q b st).
Proof.
  unfold step_mode, close_keys, open_map, open_array. cbv zeta.
  repeat first [apply mono_end | apply mono_next | apply mono_attach; intros | mono_tac; fail
    | match goal with |- mono (match ?x with _ => _ end) => destruct x end
    | match goal with |- mono (if ?x then _ else _) => destruct x end
    | apply mono_bind; [|intros] | mono_tac ].
Qed.
Lemma mono_step X prev b st : mono (step X prev b st).
Proof.
  unfold step. cbv zeta. destruct (negb (p_ps st)); [destruct (_ && _); apply mono_step_mode|].
  destruct (_ && _); [|apply mono_step_mode]. destruct (p_mode _); first [apply mono_end|apply mono_step_mode].
Qed.

(** ** Changing one map below the base *)
Section Touch.
  Context (X : ext) (tn : nils) (base : nat).

  (** [w'] is [w] with another content for the map [m], and new variables and values. *)
  Record touch (m : nat) (w w' : world) : Prop := {
    to_only : only (eq m) w w';
    to_map : forall l, l <> m -> (l < w_next w)%nat -> w_map w' l = w_map w l;
    to_arr : forall l, (l < w_next w)%nat -> w_arr w' l = w_arr w l;
    to_val : forall l, (l < w_next w)%nat -> w_val w' l = w_val w l;
    to_var : forall l, (l < w_next w)%nat -> w_var w' l = w_var w l }.

  Definition with_map (w0 w' : world) (m : nat) : world :=
    World (w_next w0) (fun l => if Nat.eqb l m then w_map w' m else w_map w0 l) (w_arr w0) (w_val w0) (w_var w0).

  Lemma tree_touch w w' pr m : tree_inv (from base) w pr -> (base <= w_next w)%nat -> (m < base)%nat -> only (eq m) w w' -> tree_inv (from base) w' pr.
  Proof.
    intros [A B C D] Bs Hm O. pose proof (on_next _ _ _ O) as N. unfold from in *.
    assert (S : forall c p v, (base <= c)%nat -> slot w' c p v -> slot w c p v) by (intros; eapply on_slot; eauto; lia).
    assert (V : forall c p v i, (base <= c)%nat -> slot w' c p v -> w_val w' v = Some i ->
      w_val w v = Some i /\ forall l, refers i = Some l -> (base <= l < w_next w)%nat).
    { intros c p v i Hc H E. destruct (A c p v Hc (S _ _ _ Hc H)) as (_ & j & Ej & R).
      rewrite (on_val _ _ _ O _ _ Ej) in E. inversion E; subst. auto. }
    split.
    - intros c p v Hc H. destruct (A c p v Hc (S _ _ _ Hc H)) as (L & j & Ej & R). split; [lia|].
      exists j. split; [eapply on_val; eauto|]. intros l Hl. apply R in Hl. lia.
    - eauto.
    - intros c p v i c' p' v' i' l Hc Hc' H H' E E' R R'.
      destruct (V _ _ _ _ Hc H E) as [E1 _]. destruct (V _ _ _ _ Hc' H' E') as [E2 _].
      eapply (C c p v i c' p' v' i' l); eauto.
    - intros q Hq. destruct (D q Hq) as [Lq Rq]. split; [lia|]. intros c p v i Hc H E.
      destruct (V _ _ _ _ Hc H E) as [E1 _]. eapply Rq; eauto.
  Qed.

  Lemma sinv_touch w0 h ls pr stk r w zs h' w' m :
    sinv_at X tn (from base) w0 h ls pr stk r w zs -> (m < base)%nat -> touch m w w' -> live X h' w' ->
    sinv X tn (from base) (with_map w0 w' m) h' ls pr stk r.
  Proof.
    intros [L Bs0 Sm Nx Nd Zs Ls Sk Rt Tr] Hm T L'. destruct T as [O Tm Ta Tv Tr2]. pose proof (on_next _ _ _ O) as N.
    pose proof (Bs0 _ (le_n _)) as Bs. apply off_below in Sm. unfold from in Bs.
    assert (K : keeps_on w w' (Fr (from base) zs) (Fr (from base) zs)).
    { split; [auto|]. repeat split.
      - intros l d [Hb _]. unfold from in Hb. apply (on_map _ _ _ O). lia.
      - intros l d [Hb _]. unfold from in Hb. apply (on_arr _ _ _ O). lia.
      - intros l d _. apply (on_val _ _ _ O).
      - intros l d _. apply (on_var _ _ _ O). }
    exists w', zs. split; auto; try lia.
    - unfold from. lia.
    - apply off_below. split; intros l Hl; cbn [with_map w_map w_arr w_val w_var].
      + destruct (Nat.eqb_spec l m) as [->|Ne]; auto. rewrite Tm by (auto; lia). now apply (sb_map _ _ _ Sm).
      + rewrite Ta by lia. now apply (sb_arr _ _ _ Sm).
      + rewrite Tv by lia. now apply (sb_val _ _ _ Sm).
      + rewrite Tr2 by lia. now apply (sb_var _ _ _ Sm).
    - cbn. lia.
    - eapply Forall_impl; [|exact Zs]. unfold from. cbn. lia.
    - eapply srep_frame; eauto. intros z I E. rewrite Forall_forall in Zs. apply Zs in I. unfold from in I. lia.
    - eapply rootrep_frame; [exact K| | |exact Rt]; auto.
    - eapply tree_touch; eauto.
  Qed.

  Lemma pinv_touch w0 ts st h m h' :
    pinv X tn (from base) w0 ts st h -> (m < base)%nat -> (forall w, live X h w -> exists w', touch m w w' /\ live X h' w') ->
    exists w0', pinv X tn (from base) w0' ts st h' /\ forall b, (b <= m)%nat -> same_below b w0 w0'.
  Proof.
    intros (ls & pr & -> & w & zs & S) Hm T. destruct (T w (si_live _ _ _ _ _ _ _ _ _ _ _ S)) as (w' & T' & L').
    exists (with_map w0 w' m). split.
    - exists ls, pr. split; auto. eapply sinv_touch; eauto.
    - intros b Hb. split; intros l Hl; cbn; auto. now rewrite (proj2 (Nat.eqb_neq l m)) by lia.
  Qed.

  Lemma touch_set w m k s d : bounded w -> w_map w m = Some d ->
    touch m w (set_map (new_val (new_var w s) (IPtr (stype_of s) (Some (w_next w)))) m (dict_set d k (Some (S (w_next w))))).
  Proof.
    intros B E. assert (B1 : bounded (new_var w s)) by now apply bounded_newvar.
    split.
    - eapply (only_trans _ _ (new_var w s)); [apply (evo_newvar (from 0) w B); unfold from; lia|].
      eapply only_trans; [apply (evo_newval (from 0) (new_var w s) B1); unfold from; lia|]. apply (evo_setmap (from 0)); auto; unfold from; lia.
    - intros l Ne Hl. cbn. now rewrite put_other.
    - intros l Hl. reflexivity.
    - intros l Hl. cbn. apply put_other. cbn. lia.
    - intros l Hl. cbn. apply put_other. lia.
  Qed.
  Lemma touch_var w m s : bounded w -> touch m w (new_var w s).
  Proof.
    intros B. split; auto.
    - apply (evo_newvar (from 0) w B); unfold from; lia.
    - intros l Hl. cbn. apply put_other. lia.
  Qed.

  (** ** The counters *)
  Definition cget (c : counts) (k : str) : nat :=
    if str_eqb k [c_lb] then n_lb c else if str_eqb k [c_rb] then n_rb c else if str_eqb k [c_ls] then n_ls c
    else if str_eqb k [c_rs] then n_rs c else if str_eqb k k_open then n_oq c else n_cq c.

  Definition counted : list str := [[c_lb]; [c_rb]; [c_ls]; [c_rs]; k_open; k_close].
  Definition cnt (h : heap) (m : nat) (f : str -> Z) : Prop :=
    has (w_map (view h)) m /\ forall k, In k counted -> scalar_at (view h) m k = Some (SInt KInt (f k)).

  Lemma scalar_at_ext w w' m k :
    (forall l, w_map w l = w_map w' l) -> (forall l, w_val w l = w_val w' l) -> (forall l, w_var w l = w_var w' l) ->
    scalar_at w m k = scalar_at w' m k.
  Proof.
    intros Em Ev Er. unfold scalar_at, SpecWorld.object_at, map_at. rewrite Em. destruct (dict_get _ k) as [[v|]|]; auto. rewrite Ev.
    destruct (w_val w' v) as [i|]; auto. destruct i as [| |t [p|]| | | | | | | | | | | | | | | | |]; cbn; auto.
  Qed.
  Lemma cnt_live h w m f : live X h w -> cnt h m f <-> has (w_map w) m /\ forall k, In k counted -> scalar_at w m k = Some (SInt KInt (f k)).
  Proof.
    intros [R P]. destruct (impl_eq _ _ _ P (view_impl _ (reachable_Inv _ _ R))) as (_ & Em & Ea & Ev & Er). unfold cnt, has.
    rewrite Em. split; intros [H K]; (split; [exact H|]); intros k I; specialize (K k I); rewrite <- K; [|symmetry]; apply scalar_at_ext; auto.
  Qed.
  Lemma cnt_reading h m f k : reachable X h -> cnt h m f -> In k counted -> fits (x_is64 X) KInt (f k) ->
    run_getter (GInt KInt) X h m k = Ok (AnsIntP (GVal (Some (f k)))).
  Proof. intros R [Hm H] I F. exact (proj1 (map_same_type X h m k (SInt KInt (f k)) R Hm (H k I) F)). Qed.

  Lemma ptr_of_reading h m k z : run_getter (GInt KInt) X h m k = Ok (AnsIntP (GVal (Some z))) ->
    map_ptr (TyInt KInt) X m k h = Ok (GVal (Some (length h)), h ++ [CPtr (SInt KInt z)]).
  Proof.
    cbn [run_getter map_ptr]. unfold map_GetIntKind, map_via. intros E.
    destruct (map_IsNull h m k) as [[]| | |]; cbn [rbind rmap] in *; try discriminate.
    destruct (map_GetValue h m k) as [[v|]| | |]; cbn [rbind rmap] in *; try discriminate.
    cbn [value_ptr]. destruct (value_GetIntKind KInt X h v) as [g| | |]; cbn [rmap rbind] in E; try discriminate. injection E as ->. reflexivity.
  Qed.

  Lemma upd_last {A} (l : list A) x y : upd (l ++ [x]) (length l) y = l ++ [y].
  Proof. induction l as [|z l IH]; cbn; auto. now rewrite IH. Qed.

  Lemma bump_set h m k z c : run_getter (GInt KInt) X h m k = Ok (AnsIntP (GVal (Some z))) -> z <> int_max (x_is64 X) KInt ->
    bump X c m k h = (map_SetScalarValue m k (SInt KInt (z + 1)) ;; ret []) h.
  Proof.
    intros E N. unfold bump, bind at 1. rewrite (ptr_of_reading _ _ _ _ E). unfold bind at 1, incr_int.
    rewrite nth_error_app2, Nat.sub_diag by auto. cbn [nth_error]. apply Z.eqb_neq in N. rewrite N.
    unfold wr. rewrite app_length. cbn [length]. rewrite (proj2 (Nat.ltb_lt _ _)) by lia. rewrite upd_last. reflexivity.
  Qed.

  Lemma bump_live h w m k c f : live X h w -> cnt h m f -> In k counted -> (0 <= f k < int_max (x_is64 X) KInt)%Z ->
    exists h' w', bump X c m k h = Ok ([], h') /\ live X h' w' /\ touch m w w' /\ cnt h' m (fun j => if str_eqb j k then (f k + 1)%Z else f j)
      /\ (forall w2, live X h w2 -> exists w2', touch m w2 w2' /\ live X h' w2').
  Proof.
    intros L C I B.
    assert (F : fits (x_is64 X) KInt (f k)).
    { apply fits_iff. unfold in_range. apply andb_true_intro. split; apply Z.leb_le; [destruct (x_is64 X); cbn; lia|lia]. }
    pose proof (cnt_reading h m f k (proj1 L) C I F) as G.
    assert (T : forall w2, live X h w2 -> exists h' w', bump X c m k h = Ok ([], h') /\ live X h' w' /\ touch m w2 w'
       /\ cnt h' m (fun j => if str_eqb j k then (f k + 1)%Z else f j)).
    { intros w2 L2. apply (cnt_live h w2 m f L2) in C as [[d Hd] H].
      destruct (run_SetScalarValue X h w2 m k (SInt KInt (f k + 1)) d L2 Hd) as (h' & E & L').
      set (w' := set_map _ m _) in *. pose proof (touch_set w2 m k (SInt KInt (f k + 1)) d (live_bounded _ _ _ L2) Hd) as T.
      fold w' in T. exists h', w'. split; [rewrite (bump_set h m k (f k) c G) by lia; unfold bind; now rewrite E|].
      split; [exact L'|]. split; [exact T|]. apply (cnt_live h' w' m _ L'). split.
      { exists (dict_set d k (Some (S (w_next w2)))). cbn. apply put_same. }
      intros j J. unfold scalar_at, SpecWorld.object_at, map_at. assert (Ed : w_map w' m = Some (dict_set d k (Some (S (w_next w2))))) by (cbn; apply put_same).
      rewrite Ed. cbn [the]. rewrite dict_get_set. destruct (str_eqb_spec k j) as [<-|Ne].
      - rewrite str_eqb_refl. cbn. rewrite put_same. cbn. now rewrite put_same.
      - rewrite (proj2 (str_eqb_neq j k)) by congruence. specialize (H j J). unfold scalar_at, SpecWorld.object_at, map_at in H. rewrite Hd in H. cbn [the] in H.
        destruct (dict_get d j) as [[v|]|]; try discriminate. destruct (w_val w2 v) as [i|] eqn:Ei; [|discriminate].
        rewrite (on_val _ _ _ (to_only _ _ _ T) _ _ Ei). destruct i as [| |t [p|]| | | | | | | | | | | | | | | | |]; cbn in *; try discriminate; auto.
        apply (on_var _ _ _ (to_only _ _ _ T)) in H. exact H. }
    destruct (T w L) as (h' & w' & E & L' & Tw & C'). exists h', w'. split; [exact E|]. split; [exact L'|]. split; [exact Tw|]. split; [exact C'|].
    intros w2 L2. destruct (T w2 L2) as (h2 & w2' & E2 & L2' & T2 & _). rewrite E in E2. injection E2 as <-. eauto.
  Qed.
End Touch.

Section Loop.
  Context (X : ext).
  Notation N0 := NoNils.

  Definition fc (c : counts) (k : str) : Z := Z.of_nat (cget c k).
  Definition total (c : counts) : nat := n_lb c + n_rb c + n_ls c + n_rs c + n_oq c + n_cq c.
  Lemma cget_total c k : cget c k <= total c.
  Proof. unfold cget, total. repeat match goal with |- context [if ?b then _ else _] => destruct b end; lia. Qed.

  Definition next_cnt (prev : option ascii) (ps : bool) (b : ascii) (c : counts) : counts * bool :=
    let q := Ascii.eqb b c_dq && match prev with Some p => negb (Ascii.eqb p c_bs) | None => true end in
    if q then if ps then (count_close c, false) else (count_open c, true)
    else if ps then (c, true) else (count_bracket b c, false).
  Lemma next_total prev ps b c : total (fst (next_cnt prev ps b c)) <= S (total c).
  Proof.
    unfold next_cnt, count_close, count_open, count_bracket, total. cbv zeta.
    repeat match goal with |- context [if ?b then _ else _] => destruct b end; cbn; lia.
  Qed.

  Lemma cnt_ext h m f g : (forall k, In k counted -> f k = g k) -> cnt h m f -> cnt h m g.
  Proof. intros E [H K]. split; auto. intros k I. rewrite <- E by auto. auto. Qed.

  Lemma tick_ok prev ps b h w m c :
    live X h w -> cnt h m (fc c) -> (Z.of_nat (total c) < int_max (x_is64 X) KInt)%Z ->
    exists h', tick X m prev ps b h = Ok ((snd (next_cnt prev ps b c), []), h') /\ cnt h' m (fc (fst (next_cnt prev ps b c)))
      /\ (h' = h \/ forall w2, live X h w2 -> exists w2', touch m w2 w2' /\ live X h' w2').
  Proof.
    intros L C B. unfold tick, next_cnt. cbv zeta. set (q := _ && _).
    assert (U : forall chk k c', In k counted -> (forall j, In j counted -> (if str_eqb j k then (fc c k + 1)%Z else fc c j) = fc c' j) ->
      exists h', bump X chk m k h = Ok ([], h') /\ cnt h' m (fc c') /\ forall w2, live X h w2 -> exists w2', touch m w2 w2' /\ live X h' w2').
    { intros chk k c' I E. destruct (bump_live X h w m k chk (fc c) L C I) as (h' & w' & Eb & L' & T & C' & T2).
      { pose proof (cget_total c k). unfold fc. lia. }
      exists h'. split; [exact Eb|]. split; [|exact T2]. eapply cnt_ext; [|exact C']. exact E. }
    assert (D : forall j k n, (if str_eqb j k then (Z.of_nat n + 1)%Z else Z.of_nat n) = Z.of_nat (if str_eqb j k then S n else n)).
    { intros j k n. destruct (str_eqb j k); lia. }
    destruct ps; cbn [negb]; destruct q.
    - destruct (U true k_close (count_close c)) as (h' & E & C' & T); [cbn; tauto| |].
      { intros j J. cbn in J. destruct J as [<-|[<-|[<-|[<-|[<-|[<-|[]]]]]]]; cbn; auto. unfold fc, cget. cbn. lia. }
      exists h'. unfold bind. rewrite E. cbn. auto.
    - exists h. cbn. auto.
    - destruct (U true k_open (count_open c)) as (h' & E & C' & T); [cbn; tauto| |].
      { intros j J. cbn in J. destruct J as [<-|[<-|[<-|[<-|[<-|[<-|[]]]]]]]; cbn; auto. unfold fc, cget. cbn. lia. }
      exists h'. unfold bind. rewrite E. cbn. auto.
    - destruct (Ascii.eqb b c_lb || Ascii.eqb b c_rb || Ascii.eqb b c_ls || Ascii.eqb b c_rs) eqn:Bk.
      + destruct (U false [b] (count_bracket b c)) as (h' & E & C' & T).
        { destruct (Ascii.eqb_spec b c_lb) as [->|]; [cbn; tauto|]. destruct (Ascii.eqb_spec b c_rb) as [->|]; [cbn; tauto|].
          destruct (Ascii.eqb_spec b c_ls) as [->|]; [cbn; tauto|]. destruct (Ascii.eqb_spec b c_rs) as [->|]; [cbn; tauto|]. discriminate. }
        { intros j J.
          destruct (Ascii.eqb_spec b c_lb) as [->|]; [|destruct (Ascii.eqb_spec b c_rb) as [->|]; [|destruct (Ascii.eqb_spec b c_ls) as [->|];
            [|destruct (Ascii.eqb_spec b c_rs) as [->|]; [|discriminate]]]];
            cbn in J; destruct J as [<-|[<-|[<-|[<-|[<-|[<-|[]]]]]]]; cbn; auto; unfold fc, cget; cbn; lia. }
        exists h'. unfold bind. rewrite E. cbn. auto.
      + exists h. cbn. split; [reflexivity|]. split; auto. unfold count_bracket.
        apply orb_false_iff in Bk as [Bk B4]. apply orb_false_iff in Bk as [Bk B3]. apply orb_false_iff in Bk as [B1 B2].
        now rewrite B1, B2, B3, B4.
  Qed.

  Lemma pinv_live tn base w0 ts st h : pinv X tn (from base) w0 ts st h -> exists w, live X h w /\ same_below base w0 w.
  Proof. intros (ls & pr & _ & w & zs & S). exists w. split; [apply S|apply off_below, S]. Qed.

  (** The rest of an iteration leaves the counters alone. *)
  Lemma step_cnt tn base w0 ts st h ts' st' h' m f prev b :
    pinv X tn (from base) w0 ts st h -> pinv X tn (from base) w0 ts' st' h' -> step X prev b st h = Ok (st', h') -> (m < base)%nat ->
    cnt h m f -> cnt h' m f.
  Proof.
    intros P P' E Hm C. destruct (pinv_live _ _ _ _ _ _ P) as (w & L & S). destruct (pinv_live _ _ _ _ _ _ P') as (w' & L' & S').
    pose proof (proj1 (cnt_live X h w m f L) C) as [Hh C2]. clear C. rename C2 into C. apply (cnt_live X h' w' m f L'). pose proof (mono_step X prev b st h st' h' E) as K.
    assert (Em : w_map w' m = w_map w m) by (rewrite (sb_map _ _ _ S m Hm), (sb_map _ _ _ S' m Hm); reflexivity).
    split; [unfold has; now rewrite Em|]. intros k I. specialize (C k I). unfold scalar_at, SpecWorld.object_at, map_at in *. rewrite Em.
    destruct (dict_get _ k) as [[v|]|]; try discriminate. destruct (w_val w v) as [i|] eqn:Ei; [|discriminate].
    assert (Ei' : w_val w' v = Some i).
    { apply (im_val _ _ (proj2 L')). apply K; [exact Logic.I|]. now apply (im_val _ _ (proj2 L)). }
    rewrite Ei'. destruct i as [| |t [p|]| | | | | | | | | | | | | | | | |]; cbn in *; try discriminate; auto.
    apply (im_var _ _ (proj2 L')). apply K; [exact Logic.I|]. now apply (im_var _ _ (proj2 L)).
  Qed.

  Lemma loop_metrics_ok m base s : forall prev ts st h w0,
    pinv X N0 (from base) w0 ts st h -> (m < base)%nat -> cnt h m (fc (t_cnt ts)) ->
    (Z.of_nat (total (t_cnt ts)) + Z.of_nat (length s) <= int_max (x_is64 X) KInt)%Z ->
    match t_loop prev s ts, loop_metrics X m prev s st h with
    | Ok ts', Ok (GVal st', h') =>
        exists w0', pinv X N0 (from base) w0' ts' st' h' /\ cnt h' m (fc (t_cnt ts')) /\ (forall b, (b <= m)%nat -> same_below b w0 w0')
          /\ (Z.of_nat (total (t_cnt ts')) <= int_max (x_is64 X) KInt)%Z
    | Panic, Panic => True
    | _, _ => False
    end.
  Proof.
    induction s as [|b s IH]; intros prev ts st h w0 P Hm C B.
    - cbn. exists w0. split; auto. split; auto. split; [intros; apply same_refl|]. cbn in B. lia.
    - cbn [t_loop loop_metrics length] in *. destruct (pinv_live _ _ _ _ _ _ P) as (w & L & S).
      pose proof (pinv_fields X _ _ _ _ _ _ P) as (_ & Eps & _). rewrite Eps.
      destruct (tick_ok prev (t_ps ts) b h w m (t_cnt ts) L C) as (h1 & E1 & C1 & T); [lia|]. unfold bind. rewrite !E1. cbn [snd].
      assert (P1 : exists w1, pinv X N0 (from base) w1 ts st h1 /\ forall b, (b <= m)%nat -> same_below b w0 w1).
      { destruct T as [->|T]; [exists w0; split; auto; intros; apply same_refl|]. eapply pinv_touch; eauto. }
      destruct P1 as (w1 & P1 & S1). pose proof (step_refine X N0 (from base) w1 prev b ts st h1 P1) as A.
      destruct (t_step prev b ts) as [ts2| | |] eqn:Et; destruct (step X prev b st h1) as [[st2 h2]| | |] eqn:Es; cbn in A; try contradiction; cbn [rbind]; auto.
      assert (Ec : (t_cnt ts2, t_ps ts2) = next_cnt prev (t_ps ts) b (t_cnt ts)) by exact (t_step_cnt _ _ _ _ Et).
      pose proof (next_total prev (t_ps ts) b (t_cnt ts)) as Nt.
      assert (Ec1 : t_cnt ts2 = fst (next_cnt prev (t_ps ts) b (t_cnt ts))) by (rewrite <- Ec; reflexivity).
      assert (C2 : cnt h2 m (fc (t_cnt ts2))).
      { rewrite Ec1. exact (step_cnt N0 base w1 ts st h1 ts2 st2 h2 m _ prev b P1 A Es Hm C1). }
      specialize (IH (Some b) ts2 st2 h2 w1 A Hm C2).       assert (B2 : (Z.of_nat (total (t_cnt ts2)) + Z.of_nat (length s) <= int_max (x_is64 X) KInt)%Z) by (rewrite Ec1; lia).
      specialize (IH B2). destruct (t_loop (Some b) s ts2) as [ts3| | |], (loop_metrics X m (Some b) s st2 h2) as [[[st3|e3] h3]| | |]; try contradiction; auto.
      destruct IH as (w3 & P3 & C3 & S3 & B3). exists w3. split; auto. split; auto. split; auto.
      intros b0 Hb. eapply same_trans; [apply S1|apply S3]; auto.
  Qed.

  (** Six readings at the end. *)
  Lemma read_ok base m ts st h w0 k f :
    pinv X N0 (from base) w0 ts st h -> (m < base)%nat -> cnt h m f -> In k counted -> (0 <= f k <= int_max (x_is64 X) KInt)%Z ->
    let h' := h ++ [CPtr (SInt KInt (f k))] in
    map_ptr (TyInt KInt) X m k h = Ok (GVal (Some (length h)), h') /\ cnt h' m f
    /\ exists w0', pinv X N0 (from base) w0' ts st h' /\ forall b, (b <= m)%nat -> same_below b w0 w0'.
  Proof.
    intros P Hm C I B h'. destruct (pinv_live _ _ _ _ _ _ P) as (w & L & S).
    assert (F : fits (x_is64 X) KInt (f k)).
    { apply fits_iff. unfold in_range. apply andb_true_intro. split; apply Z.leb_le; [destruct (x_is64 X); cbn; lia|lia]. }
    assert (NL : forall w2, live X h w2 -> live X h' (new_var w2 (SInt KInt (f k)))).
    { intros w2 L2. destruct (run_one X h w2 (ANewVar (SInt KInt (f k))) L2) as (h2 & E2 & L2'); [exact Logic.I|].
      cbn [run_call] in E2. unfold bind, alloc, ret in E2. injection E2 as _ <-. exact L2'. }
    split; [|split].
    - apply ptr_of_reading. apply cnt_reading; auto. apply L.
    - pose proof (proj1 (cnt_live X h w m f L) C) as [[d Hd] C2]. apply (cnt_live X h' _ m f (NL w L)). split; [exists d; exact Hd|].
      intros j J. specialize (C2 j J). unfold scalar_at, SpecWorld.object_at, map_at in *. cbn [new_var w_map w_val] in *.
      destruct (dict_get _ j) as [[v|]|]; try discriminate. destruct (w_val w v) as [i|]; [|discriminate].
      destruct i as [| |t [p|]| | | | | | | | | | | | | | | | |]; cbn in *; try discriminate; auto.
      apply put_old; auto. intros x Hx. destruct (live_bounded _ _ _ L) as (_ & Bv & _). apply Bv in Hx. lia.
    - eapply pinv_touch; eauto. intros w2 L2. exists (new_var w2 (SInt KInt (f k))). split; [|now apply NL].
      apply touch_var. eapply live_bounded; eauto.
  Qed.

  Lemma eqb_Z_nat a b : (Z.of_nat a =? Z.of_nat b)%Z = Nat.eqb a b.
  Proof. destruct (Nat.eqb_spec a b) as [->|N]; [apply Z.eqb_refl|]. apply Z.eqb_neq. lia. Qed.

  Lemma zero_live h w m k ks : live X h w -> has (w_map w) m -> (forall j, In j ks -> scalar_at w m j = Some (SInt KInt 0)) ->
    exists h' w', zero_int m k h = Ok (tt, h') /\ live X h' w' /\ touch m w w' /\ has (w_map w') m
      /\ forall j, In j (k :: ks) -> scalar_at w' m j = Some (SInt KInt 0).
  Proof.
    intros L [d Hd] H. destruct (run_SetScalarValue X h w m k (SInt KInt 0) d L Hd) as (h' & E & L').
    set (w' := set_map _ m _) in *. pose proof (touch_set w m k (SInt KInt 0) d (live_bounded _ _ _ L) Hd) as T.
    fold w' in T. exists h', w'. split; [exact E|]. split; [exact L'|]. split; [exact T|].
    assert (Ed : w_map w' m = Some (dict_set d k (Some (S (w_next w))))) by (cbn; apply put_same).
    split; [eexists; exact Ed|]. intros j J. unfold scalar_at, SpecWorld.object_at, map_at.
    rewrite Ed. cbn [the]. rewrite dict_get_set. destruct (str_eqb_spec k j) as [<-|Ne].
    - cbn. rewrite put_same. cbn. now rewrite put_same.
    - destruct J as [J|J]; [congruence|]. specialize (H j J). unfold scalar_at, SpecWorld.object_at, map_at in H. rewrite Hd in H. cbn [the] in H.
      destruct (dict_get d j) as [[v|]|]; try discriminate. destruct (w_val w v) as [i|] eqn:Ei; [|discriminate].
      rewrite (on_val _ _ _ (to_only _ _ _ T) _ _ Ei). destruct i as [| |t [p|]| | | | | | | | | | | | | | | | |]; cbn in *; try discriminate; auto.
      apply (on_var _ _ _ (to_only _ _ _ T)) in H. exact H.
  Qed.

  Lemma touch_below b m w w' : (b <= m)%nat -> (b <= w_next w)%nat -> touch m w w' -> same_below b w w' /\ (w_next w <= w_next w')%nat.
  Proof.
    intros Hm Hn [O A B C D]. split; [|apply O].
    split; intros l Hl; [apply A|apply B|apply C|apply D]; lia.
  Qed.

  Lemma new_metrics_cnt h : reachable X h ->
    exists m h1, new_metrics h = Ok (m, h1) /\ reachable X h1 /\ (length h <= m < length h1)%nat
      /\ same_below (length h) (view h) (view h1) /\ cnt h1 m (fc counts0).
  Proof.
    intros R. pose proof (live_view _ _ R) as L. pose proof (im_next _ _ (proj2 L)) as Nx.
    destruct (run_new_map _ _ _ L) as (h0 & E0 & L0). set (m := S (w_next (view h))) in *.
    assert (H0 : has (w_map (w_newmap (view h))) m) by (eexists; cbn; apply put_same).
    assert (S0 : same_below (length h) (view h) (w_newmap (view h)) /\ (w_next (view h) <= w_next (w_newmap (view h)))%nat).
    { destruct (evo_newmap (from (length h)) (view h) (live_bounded _ _ _ L) (fun l H => H) (fun _ => False)) as [_ Q]. split; [now apply off_below|cbn; lia]. }
    destruct (zero_live h0 _ m [c_lb] [] L0 H0) as (h1 & w1 & E1 & L1 & T1 & H1 & G1); [intros j []|].
    destruct (zero_live h1 _ m [c_rb] _ L1 H1 G1) as (h2 & w2 & E2 & L2 & T2 & H2 & G2).
    destruct (zero_live h2 _ m [c_ls] _ L2 H2 G2) as (h3 & w3 & E3 & L3 & T3 & H3 & G3).
    destruct (zero_live h3 _ m [c_rs] _ L3 H3 G3) as (h4 & w4 & E4 & L4 & T4 & H4 & G4).
    destruct (zero_live h4 _ m k_open _ L4 H4 G4) as (h5 & w5 & E5 & L5 & T5 & H5 & G5).
    destruct (zero_live h5 _ m k_close _ L5 H5 G5) as (h6 & w6 & E6 & L6 & T6 & H6 & G6).
    destruct S0 as [S0 N0'].
    assert (Hm : (length h <= m)%nat) by (unfold m; lia).
    destruct (touch_below (length h) m (w_newmap (view h)) w1 Hm ltac:(lia) T1) as [S1 N1]. destruct (touch_below (length h) m w1 w2 Hm ltac:(lia) T2) as [S2 N2].
    destruct (touch_below (length h) m w2 w3 Hm ltac:(lia) T3) as [S3 N3]. destruct (touch_below (length h) m w3 w4 Hm ltac:(lia) T4) as [S4 N4].
    destruct (touch_below (length h) m w4 w5 Hm ltac:(lia) T5) as [S5 N5]. destruct (touch_below (length h) m w5 w6 Hm ltac:(lia) T6) as [S6 N6].
    exists m, h6. split; [unfold new_metrics, bind; rewrite E0, E1, E2, E3, E4, E5, E6; reflexivity|]. split; [apply L6|]. split; [|split].
    - split; [exact Hm|]. rewrite <- (im_next _ _ (proj2 L6)). cbn [w_newmap w_next] in *. unfold m. lia.
    - apply (same_below_impl _ _ w6); [apply L6|apply view_impl, (reachable_Inv _ _ (proj1 L6))|].
      repeat (eapply same_trans; [eassumption|]). apply same_refl.
    - apply (cnt_live X h6 w6 m _ L6). split; [exact H6|]. intros k I. change (fc counts0 k) with (Z.of_nat (cget counts0 k)).
      replace (cget counts0 k) with 0 by (unfold cget; repeat match goal with |- context [if ?b then _ else _] => destruct b end; reflexivity).
      apply G6. cbn [In counted] in *. unfold k_open, k_close. tauto.
  Qed.

  Theorem parse_metrics_refines h s : reachable X h -> (Z.of_nat (length s) <= int_max (x_is64 X) KInt)%Z ->
    parse_result X h (tparse s) (Parse_metrics X s h).
  Proof.
    intros R Ln. pose proof (parse_refines X h s R) as Ref. unfold Parse in Ref. unfold Parse_metrics, tparse in *. fold (pre_errs s) in *.
    destruct (pre_errs s) as [|e0 es] eqn:Epre; [|exact Ref].
    assert (Hp : has_prefix [c_lb] s = true).
    { unfold pre_errs in Epre. destruct s; [discriminate|]. destruct (has_prefix [c_lb] (a :: s)); auto. discriminate. }
    destruct (str_eqb s (lit "{}")); [exact Ref|]. clear Ref.
    destruct (new_metrics_cnt h R) as (m & h1 & E1 & R1 & Hm & S1 & C1). unfold bind at 1. rewrite E1.
    assert (P0 : pinv X NoNils (from (length h1)) (view h1) tst0 pst0 h1).
    { exists [], None. split; auto. now apply sinv0. }
    pose proof (loop_metrics_ok m (length h1) s None tst0 pst0 h1 (view h1) P0 (proj2 Hm) C1 Ln) as A. unfold bind at 1.
    destruct (t_loop None s tst0) as [ts| | |] eqn:El; destruct (loop_metrics X m None s pst0 h1) as [[[st|e] h2]| | |];
      try contradiction; cbn [rbind parse_result]; auto.
    destruct A as (w2 & P2 & C2 & S2 & B2).
    assert (Bk : forall k, (0 <= fc (t_cnt ts) k <= int_max (x_is64 X) KInt)%Z).
    { intros k. pose proof (cget_total (t_cnt ts) k). unfold fc. lia. }
    destruct Hm as [Hm1 Hm2].
    destruct (read_ok _ m ts st _ _ [c_lb] _ P2 Hm2 C2) as (E3 & C3 & w3 & P3 & S3); [cbn; tauto|apply Bk|].
    destruct (read_ok _ m ts st _ _ [c_rb] _ P3 Hm2 C3) as (E4 & C4 & w4 & P4 & S4); [cbn; tauto|apply Bk|].
    destruct (read_ok _ m ts st _ _ [c_ls] _ P4 Hm2 C4) as (E5 & C5 & w5 & P5 & S5); [cbn; tauto|apply Bk|].
    destruct (read_ok _ m ts st _ _ [c_rs] _ P5 Hm2 C5) as (E6 & C6 & w6 & P6 & S6); [cbn; tauto|apply Bk|].
    destruct (read_ok _ m ts st _ _ k_open _ P6 Hm2 C6) as (E7 & C7 & w7 & P7 & S7); [cbn; tauto|apply Bk|].
    destruct (read_ok _ m ts st _ _ k_close _ P7 Hm2 C7) as (E8 & C8 & w8 & P8 & S8); [cbn; tauto|apply Bk|].
    clear C3 C4 C5 C6 C7 C8 P3 P4 P5 P6 P7.
    set (h3 := h2 ++ [_]) in *. set (h4 := h3 ++ [_]) in *. set (h5 := h4 ++ [_]) in *. set (h6 := h5 ++ [_]) in *. set (h7 := h6 ++ [_]) in *. set (h8 := h7 ++ [_]) in *.
    unfold bind. rewrite E3, E4, E5, E6, E7, E8. cbn [errs_of app].
    assert (Sb : same_below (length h) (view h) w8).
    { eapply same_trans; [exact S1|]. eapply same_trans; [apply S2; lia|]. eapply same_trans; [apply S3; lia|]. eapply same_trans; [apply S4; lia|].
      eapply same_trans; [apply S5; lia|]. eapply same_trans; [apply S6; lia|]. eapply same_trans; [apply S7; lia|]. apply S8; lia. }
    destruct P8 as (ls & pr & -> & Si). cbn [p_errs p_root].
    assert (RS : reachable X h8 /\ same_below (length h) (view h) (view h8)).
    { destruct Si as (w & zs & Si). pose proof (si_live _ _ _ _ _ _ _ _ _ _ _ Si) as [R8 P8]. split; auto.
      eapply same_trans; [exact Sb|]. apply (same_below_impl _ _ w); auto. apply view_impl, (reachable_Inv _ _ R8).
      destruct (proj1 (off_below _ _ _) (si_same _ _ _ _ _ _ _ _ _ _ _ Si)) as [Q1 Q2 Q3 Q4]. split; intros l Hl; [apply Q1|apply Q2|apply Q3|apply Q4]; lia. }
    destruct (t_errs ts) as [|e es].
    2: { cbn [parse_result]. split; [discriminate|]. exists h8. split; [reflexivity|]. tauto. }
    assert (At : forall (ha : heap) c, nth_error (ha ++ [c]) (length ha) = Some c).
    { intros ha c. rewrite nth_error_app2, Nat.sub_diag by auto. reflexivity. }
    assert (Up : forall (ha : heap) c l x, nth_error ha l = Some x -> nth_error (ha ++ [c]) l = Some x).
    { intros ha c l x Q. rewrite nth_error_app1; auto. eapply nth_error_lt; eauto. }
    unfold int_at.
    assert (A3 : nth_error h8 (length h2) = Some (CPtr (SInt KInt (fc (t_cnt ts) [c_lb])))) by (unfold h8; apply Up; unfold h7; apply Up; unfold h6; apply Up; unfold h5; apply Up; unfold h4; apply Up; unfold h3; apply At).
    assert (A4 : nth_error h8 (length h3) = Some (CPtr (SInt KInt (fc (t_cnt ts) [c_rb])))) by (unfold h8; apply Up; unfold h7; apply Up; unfold h6; apply Up; unfold h5; apply Up; unfold h4; apply At).
    assert (A5 : nth_error h8 (length h4) = Some (CPtr (SInt KInt (fc (t_cnt ts) [c_ls])))) by (unfold h8; apply Up; unfold h7; apply Up; unfold h6; apply Up; unfold h5; apply At).
    assert (A6 : nth_error h8 (length h5) = Some (CPtr (SInt KInt (fc (t_cnt ts) [c_rs])))) by (unfold h8; apply Up; unfold h7; apply Up; unfold h6; apply At).
    assert (A7 : nth_error h8 (length h6) = Some (CPtr (SInt KInt (fc (t_cnt ts) k_open)))) by (unfold h8; apply Up; unfold h7; apply At).
    assert (A8 : nth_error h8 (length h7) = Some (CPtr (SInt KInt (fc (t_cnt ts) k_close)))) by (unfold h8; apply At).
    rewrite A3, A4, A5, A6, A7, A8. clear A3 A4 A5 A6 A7 A8.
    unfold fc, cget. cbn [str_eqb]. cbn. rewrite !eqb_Z_nat.
    fold (post_errs (t_cnt ts)).
    destruct (post_errs (t_cnt ts)) as [|e es].
    2: { cbn [parse_result]. split; [discriminate|]. exists h8. split; [reflexivity|]. tauto. }
    pose proof (sinv_collapse _ _ _ _ _ _ _ _ _ Si) as Si2.
    pose proof (t_loop_root _ _ Hp El) as Rt.
    destruct Si2 as (w & zs & Si2). pose proof (si_root _ _ _ _ _ _ _ _ _ _ _ Si2) as Rr.
    pose proof (si_stk _ _ _ _ _ _ _ _ _ _ _ Si2) as Sk. inversion Sk; subst.
    destruct (collapse (t_stk ts) (t_root ts)) as [| |d] eqn:Ec; cbn [rootrep] in Rr.
    - exfalso. assert (forall stk up r, r <> RNone -> close_all up stk r <> RNone) as N.
      { induction stk as [|[f a] stk IH]; intros up r H; cbn; auto. destruct stk; [destruct r; cbn; congruence|].
        apply IH; auto. }
      now apply (N (t_stk ts) (fun f => f) (t_root ts) Rt).
    - destruct Rr as (m' & _ & []).
    - destruct Rr as (m' & -> & Rr). cbn [root_doc parse_result]. exists h8, m'. split; [reflexivity|].
      split; [tauto|]. split; [tauto|].
      pose proof (si_live _ _ _ _ _ _ _ _ _ _ _ Si2) as [R8 P8].
      split; [|eapply no_sharing_impl; [exact P8|apply view_impl, (reachable_Inv _ _ R8)|];
               apply tree_no_sharing with (own := from (length h1)); apply Si2].
      eapply rep_obj_frame; [eapply keeps_impl; [exact P8|]|].
      + apply view_impl, (reachable_Inv _ _ R8).
      + eapply rep_obj_frame; [|exact Rr]. apply keeps_on_mono. intros l [Hl _]. unfold fresh_in. unfold from in *; lia.
  Qed.
End Loop.

Lemma metrics_map X h s : reachable X h -> (Z.of_nat (length s) <= int_max (x_is64 X) KInt)%Z ->
  (Parse X s h = Panic /\ Parse_metrics X s h = Panic)
  \/ exists r, parses X h s r /\ gives X h (Parse_metrics X s h) r.
Proof.
  intros R L. pose proof (parse_refines X h s R) as A. pose proof (parse_metrics_refines X h s R L) as B.
  assert (U : forall h', same_below (length h) (view h) (view h') -> unchanged h h').
  { intros h' [S1 S2 S3 S4] l Hl. auto. }
  unfold parse_result in *. destruct (tparse s) as [[[d|]|e]| | |]; try contradiction.
  - right. exists (GVal d). split.
    + destruct A as (h' & m & E & R' & S & Rep & Ns). exists h', m. auto 6.
    + destruct B as (h' & m & E & R' & S & Rep & Ns). exists h', m. auto 6.
  - right. exists (GErr e). split.
    + destruct A as (N & h' & E & R' & S). split; auto. exists h'. auto.
    + destruct B as (N & h' & E & R' & S). split; auto. exists h'. auto.
  - left. auto.
Qed.
