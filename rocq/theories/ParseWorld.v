(** * Containers under construction, in the world of SpecWorld.v *)
From Coq Require Import Ascii String List NArith ZArith Bool Lia.
From Verif Require Import GoStr StrLemmas GoNum GoFloat Heap Common ValueModel ArrayModel MapModel
  SpecDict DictLemmas SpecWorld Inv World Reach ObjFacts SpecDoc RepFacts ParserModel TreeParser.
Import ListNotations.

(** ** Running one call *)
Definition live (X : ext) (h : heap) (w : world) : Prop := reachable X h /\ impl h w.

Lemma live_view X h : reachable X h -> live X h (view h).
Proof. intros R. split; auto. apply view_impl. eapply reachable_Inv; eauto. Qed.

Lemma run_one X h w c : live X h w -> ok_call w c ->
  exists h', run_call c h = Ok (fst (spec_call c w), h') /\ live X h' (snd (spec_call c w)).
Proof.
  intros [R P] K. pose proof (reachable_Inv _ _ R) as I.
  destruct (run_call_ok _ _ _ I P K) as (h' & E & I' & _ & P').
  exists h'. split; auto. split; auto.
  eapply R_call; eauto.
  assert (KK : ok_calls [c] (view h)).
  { apply (ok_calls_impl [c] w (view h) h); auto. now apply view_impl. split; cbn; auto. }
  apply KK.
Qed.

Definition w_newmap (w : world) : world :=
  World (S (S (w_next w))) (put (w_map w) (S (w_next w)) []) (w_arr w) (w_val w) (w_var w).
Definition w_newarr (w : world) : world :=
  World (S (w_next w)) (w_map w) (put (w_arr w) (w_next w) []) (w_val w) (w_var w).

Ltac one c :=
  intros; match goal with L : live ?X ?h ?w |- _ =>
    destruct (run_one X h w c L) as (h' & E & L'); [solve [cbn; unfold has; eauto]|];
    unfold run_call, bind, ret in E end.
Ltac onefin :=
  match goal with E : match ?m with _ => _ end = Ok _ |- _ =>
    destruct m as [[r hh]| | |] eqn:?; try discriminate; cbn in E; inversion E; subst end.

Lemma run_new_map X h w : live X h w ->
  exists h', new_map h = Ok (S (w_next w), h') /\ live X h' (w_newmap w).
Proof. one ANewMap. onefin. exists h'. split; auto. Qed.
Lemma run_new_array X h w : live X h w ->
  exists h', new_array h = Ok (w_next w, h') /\ live X h' (w_newarr w).
Proof. one ANewArray. onefin. exists h'. split; auto. Qed.
Lemma run_new_value X h w i : live X h w -> ok_object w i ->
  exists h', new_value i h = Ok (w_next w, h') /\ live X h' (new_val w i).
Proof. one (ANewValue i). onefin. exists h'. split; auto. Qed.
Lemma run_SetValue X h w m k o d : live X h w -> w_map w m = Some d -> ok_value_handle w o ->
  exists h', map_SetValue m k o h = Ok (tt, h') /\ live X h' (set_map w m (dict_set d k o)).
Proof.
  intros L H K. one (AMapSetValue m k o). onefin. destruct r.
  exists h'. split; auto. cbn in L'. unfold map_at in L'. now rewrite H in L'.
Qed.
Lemma run_SetObject X h w m k i d : live X h w -> w_map w m = Some d -> ok_object w i ->
  exists h', map_SetObject m k i h = Ok (tt, h')
    /\ live X h' (set_map (new_val w i) m (dict_set d k (Some (w_next w)))).
Proof.
  intros L H K. one (AMapSet m k i). onefin. destruct r.
  exists h'. split; auto. cbn in L'. unfold map_at in L'. now rewrite H in L'.
Qed.
Lemma run_SetScalarValue X h w m k s d : live X h w -> w_map w m = Some d ->
  exists h', map_SetScalarValue m k s h = Ok (tt, h')
    /\ live X h' (set_map (new_val (new_var w s) (IPtr (stype_of s) (Some (w_next w)))) m
                    (dict_set d k (Some (S (w_next w))))).
Proof.
  intros L H. one (AMapSetScalarValue m k s). onefin. destruct r.
  exists h'. split; auto. cbn in L'. unfold map_at in L'. now rewrite H in L'.
Qed.
Lemma run_AppendValue X h w a o l : live X h w -> w_arr w a = Some l -> ok_value_handle w o ->
  exists h', arr_AppendValue a o h = Ok (tt, h') /\ live X h' (set_arr w a (l ++ [o])).
Proof.
  intros L H K. one (AArrAppendValue a o). onefin. destruct r.
  exists h'. split; auto. cbn in L'. unfold arr_at in L'. now rewrite H in L'.
Qed.
Lemma run_AppendObject X h w a i l : live X h w -> w_arr w a = Some l -> ok_object w i ->
  exists h', arr_AppendObject a i h = Ok (tt, h')
    /\ live X h' (set_arr (new_val w i) a (l ++ [Some (w_next w)])).
Proof.
  intros L H K. one (AArrAppend a i). onefin. destruct r.
  exists h'. split; auto. cbn in L'. unfold arr_at in L'. now rewrite H in L'.
Qed.

Lemma live_bounded X h w : live X h w -> bounded w.
Proof. intros [_ P]. eapply impl_bounded; eauto. Qed.

Lemma live_rd_val X h w v i : live X h w -> w_val w v = Some i -> rd_val h v = Ok i.
Proof. intros [_ P] H. apply rd_val_iff. now apply (im_val _ _ P). Qed.

(** ** Changing at most the containers [C] *)
Record only (C : nat -> Prop) (w w' : world) : Prop := {
  on_next : (w_next w <= w_next w')%nat;
  on_map : forall l d, ~ C l -> w_map w l = Some d -> w_map w' l = Some d;
  on_arr : forall l d, ~ C l -> w_arr w l = Some d -> w_arr w' l = Some d;
  on_val : forall l d, w_val w l = Some d -> w_val w' l = Some d;
  on_var : forall l d, w_var w l = Some d -> w_var w' l = Some d;
  on_slot : forall l p v, ~ C l -> slot w' l p v -> slot w l p v }.

Lemma only_refl C w : only C w w.
Proof. split; auto. Qed.
Lemma only_trans C w1 w2 w3 : only C w1 w2 -> only C w2 w3 -> only C w1 w3.
Proof. intros [] []. split; eauto. lia. Qed.
Lemma only_weak (C C' : nat -> Prop) w w' : (forall l, C l -> C' l) -> only C w w' -> only C' w w'.
Proof. intros H []. split; auto. Qed.

(** The part of the world below [base] is untouched. *)
Record same_below (base : nat) (w w' : world) : Prop := {
  sb_map : forall l, (l < base)%nat -> w_map w' l = w_map w l;
  sb_arr : forall l, (l < base)%nat -> w_arr w' l = w_arr w l;
  sb_val : forall l, (l < base)%nat -> w_val w' l = w_val w l;
  sb_var : forall l, (l < base)%nat -> w_var w' l = w_var w l }.
Lemma same_refl base w : same_below base w w.
Proof. split; auto. Qed.
Lemma same_trans base w1 w2 w3 : same_below base w1 w2 -> same_below base w2 w3 -> same_below base w1 w3.
Proof. intros [A1 A2 A3 A4] [B1 B2 B3 B4]. split; intros l H; [rewrite B1, A1|rewrite B2, A2|rewrite B3, A3|rewrite B4, A4]; auto. Qed.

(** The part of the world outside [own] is untouched. *)
Definition same_off (own : nat -> Prop) (w w' : world) : Prop := forall l, ~ own l ->
  w_map w' l = w_map w l /\ w_arr w' l = w_arr w l /\ w_val w' l = w_val w l /\ w_var w' l = w_var w l.
Lemma off_refl own w : same_off own w w.
Proof. intros l _. auto. Qed.
Lemma off_trans own w1 w2 w3 : same_off own w1 w2 -> same_off own w2 w3 -> same_off own w1 w3.
Proof.
  intros A B l H. destruct (A l H) as (A1 & A2 & A3 & A4), (B l H) as (B1 & B2 & B3 & B4).
  repeat split; congruence.
Qed.

(** Everything from [base] on. *)
Definition from (base : nat) : nat -> Prop := fun l => (base <= l)%nat.
Lemma off_below base w w' : same_off (from base) w w' <-> same_below base w w'.
Proof.
  split.
  - intros H. split; intros l Hl; apply (H l); unfold from; lia.
  - intros [A B C D] l Hl. unfold from in Hl. repeat split; [apply A|apply B|apply C|apply D]; lia.
Qed.

(** Both together. *)
Definition evo (own : nat -> Prop) (C : nat -> Prop) (w w' : world) : Prop := only C w w' /\ same_off own w w'.
Lemma evo_trans own C w1 w2 w3 : evo own C w1 w2 -> evo own C w2 w3 -> evo own C w1 w3.
Proof. intros [A B] [A' B']. split; [eapply only_trans|eapply off_trans]; eauto. Qed.
Lemma evo_weak own (C C' : nat -> Prop) w w' : (forall l, C l -> C' l) -> evo own C w w' -> evo own C' w w'.
Proof. intros H [A B]. split; auto. eapply only_weak; eauto. Qed.
Lemma evo_refl own C w : evo own C w w.
Proof. split; [apply only_refl|apply off_refl]. Qed.

Lemma put_same {A} (f : nat -> option A) n x : put f n x n = Some x.
Proof. unfold put. now rewrite Nat.eqb_refl. Qed.
Lemma put_other {A} (f : nat -> option A) n x l : l <> n -> put f n x l = f l.
Proof. intros H. unfold put. now apply Nat.eqb_neq in H as ->. Qed.
Lemma put_off {A} (f : nat -> option A) n x (own : nat -> Prop) l : own n -> ~ own l -> put f n x l = f l.
Proof. intros. apply put_other. intros ->. contradiction. Qed.
Lemma put_old {A} (f : nat -> option A) n x l d :
  (forall j, f n = Some j -> False) -> f l = Some d -> put f n x l = Some d.
Proof. intros H E. rewrite put_other; auto. intros ->. eauto. Qed.

Section Evo.
  Context (own : nat -> Prop) (w : world) (B : bounded w) (L : forall l, (w_next w <= l)%nat -> own l).
  Local Ltac bnd := destruct B as (Bv & Br & Bm & Ba);
    intros j J; apply Bv in J || apply Br in J || apply Bm in J || apply Ba in J; lia.

  Lemma evo_newmap C : evo own C w (w_newmap w).
  Proof.
    split; [split; cbn; auto; try lia; intros|intros l Hl; cbn; repeat split; apply put_off with (own := own); auto].
    - apply put_old; auto. bnd.
    - destruct p; cbn in *; auto. destruct H0 as (d & E & G). unfold put in E.
      destruct (Nat.eqb l (S (w_next w))); [|eauto]. inversion E; subst. discriminate.
  Qed.
  Lemma evo_newarr C : evo own C w (w_newarr w).
  Proof.
    split; [split; cbn; auto; try lia; intros|intros l Hl; cbn; repeat split; apply put_off with (own := own); auto].
    - apply put_old; auto. bnd.
    - destruct p; cbn in *; auto. destruct H0 as (d & E & G). unfold put in E.
      destruct (Nat.eqb l (w_next w)); [|eauto]. inversion E; subst. now destruct n.
  Qed.
  Lemma evo_newval C i : evo own C w (new_val w i).
  Proof.
    split; [split; cbn; auto; try lia; intros|intros l Hl; cbn; repeat split; apply put_off with (own := own); auto].
    - apply put_old; auto. bnd.
  Qed.
  Lemma evo_newvar C i : evo own C w (new_var w i).
  Proof.
    split; [split; cbn; auto; try lia; intros|intros l Hl; cbn; repeat split; apply put_off with (own := own); auto].
    - apply put_old; auto. bnd.
  Qed.
  Lemma evo_setmap (C : nat -> Prop) m d : own m -> C m -> evo own C w (set_map w m d).
  Proof.
    intros H HC. split; [split; cbn; auto; intros|intros l Hl; cbn; repeat split; apply put_off with (own := own); auto].
    - rewrite put_other; auto. congruence.
    - destruct p; cbn in *; auto. destruct H1 as (x & E & G). rewrite put_other in E by congruence. eauto.
  Qed.
  Lemma evo_setarr (C : nat -> Prop) m d : own m -> C m -> evo own C w (set_arr w m d).
  Proof.
    intros H HC. split; [split; cbn; auto; intros|intros l Hl; cbn; repeat split; apply put_off with (own := own); auto].
    - rewrite put_other; auto. congruence.
    - destruct p; cbn in *; auto. destruct H1 as (x & E & G). rewrite put_other in E by congruence. eauto.
  Qed.
End Evo.

Lemma bounded_newval w i : bounded w -> bounded (new_val w i).
Proof.
  intros (A & B & C & D). repeat split; cbn; intros v j; unfold put; try destruct (Nat.eqb_spec v (w_next w)); intros;
    try (subst; lia); repeat match goal with H : forall v j, _ -> _, E : _ v = Some _ |- _ => apply H in E end; lia.
Qed.
Lemma bounded_newvar w i : bounded w -> bounded (new_var w i).
Proof.
  intros (A & B & C & D). repeat split; cbn; intros v j; unfold put; try destruct (Nat.eqb_spec v (w_next w)); intros;
    try (subst; lia); repeat match goal with H : forall v j, _ -> _, E : _ v = Some _ |- _ => apply H in E end; lia.
Qed.

(** ** The stack of open containers *)

(** What a finished part may use: new identities outside the open containers. *)
Definition Fr (own : nat -> Prop) (zs : list nat) : nat -> Prop := fun l => own l /\ ~ In l zs.

Definition frame_obj (f : frame) (z : nat) : iface := if is_fmap f then IMap z else IArr z.
Definition frame_handle (f : frame) (z : nat) (i : iface) : Prop :=
  if is_fmap f then i = IMap z \/ i = IPMap (Some z) else i = IArr z \/ i = IPArr (Some z).

Definition akey (a : att) : str := match a with AKey k => k | _ => [] end.
Definition attached (a : att) : bool := match a with ANone => false | _ => true end.

Section Stack.
  Context (tn : nils).

  (** Content of container [z] with frame [f], with the open child [c] above it. *)
  Definition content (w : world) (F : nat -> Prop) (c : option (att * frame * nat)) (z : nat) (f : frame) : Prop :=
    match c with
    | Some (a, g, z') =>
        if attached a then
          exists u i, F u /\ w_val w u = Some i /\ frame_handle g z' i
            /\ match f with
               | FMap es => exists d, rep_members tn w F d es /\ w_map w z = Some (dict_set d (akey a) (Some u))
               | FArr ds => exists l, rep_elems tn w F l ds /\ w_arr w z = Some (l ++ [Some u])
               end
        else
          match f with
          | FMap es => exists d, rep_members tn w F d es /\ w_map w z = Some d
          | FArr ds => exists l, rep_elems tn w F l ds /\ w_arr w z = Some l
          end
    | None =>
        match f with
        | FMap es => exists d, rep_members tn w F d es /\ w_map w z = Some d
        | FArr ds => exists l, rep_elems tn w F l ds /\ w_arr w z = Some l
        end
    end.

  Inductive srep (w : world) (F : nat -> Prop) : option (att * frame * nat) -> list nat -> list nat -> list (frame * att) -> Prop :=
  | s_nil c : srep w F c [] [] []
  | s_cons c v vs z zs f a stk :
      w_val w v = Some (frame_obj f z) ->
      content w F c z f ->
      srep w F (Some (a, f, z)) vs zs stk ->
      srep w F c (v :: vs) (z :: zs) ((f, a) :: stk).

  Lemma content_frame w w' F F' c z f C :
    only C w w' -> keeps_on w w' F F' -> ~ C z -> content w F c z f -> content w' F' c z f.
  Proof.
    intros O K N. unfold content.
    assert (P : forall f, match f with
          | FMap es => exists d, rep_members tn w F d es /\ w_map w z = Some d
          | FArr ds => exists l, rep_elems tn w F l ds /\ w_arr w z = Some l
          end -> match f with
          | FMap es => exists d, rep_members tn w' F' d es /\ w_map w' z = Some d
          | FArr ds => exists l, rep_elems tn w' F' l ds /\ w_arr w' z = Some l
          end).
    { intros [es|ds] (d & R & E); exists d; split.
      - eapply rep_members_frame; eauto.
      - eapply on_map; eauto.
      - eapply rep_elems_frame; eauto.
      - eapply on_arr; eauto. }
    destruct c as [[[a g] z']|]; [|exact (P f)]. destruct (attached a); [|exact (P f)].
    intros (u & i & Fu & Eu & Hh & R). exists u, i. split.
    { destruct K as (KF & _). destruct (KF _ Fu) as [|(_ & _ & V & _)]; auto. congruence. }
    split; [eapply on_val; eauto|]. split; auto.
    destruct f as [es|ds]; destruct R as (d & R & E); exists d; split.
    - eapply rep_members_frame; eauto.
    - eapply on_map; eauto.
    - eapply rep_elems_frame; eauto.
    - eapply on_arr; eauto.
  Qed.

  Lemma srep_frame w w' F F' C c vs zs stk :
    only C w w' -> keeps_on w w' F F' -> (forall z, In z zs -> ~ C z) ->
    srep w F c vs zs stk -> srep w' F' c vs zs stk.
  Proof.
    intros O K N S. induction S as [|c v vs z zs f a stk Ev Hc S IH]; constructor.
    - eapply on_val; eauto.
    - eapply content_frame; eauto. apply N. now left.
    - apply IH. intros x Hx. apply N. now right.
  Qed.

  Lemma srep_len w F c vs zs stk : srep w F c vs zs stk -> length vs = length zs /\ length zs = length stk.
  Proof. induction 1; cbn; auto. lia. Qed.

  (** The child above only matters through its handle kind and identity. *)
  Lemma srep_child w F a f g z vs zs stk : is_fmap f = is_fmap g ->
    srep w F (Some (a, f, z)) vs zs stk -> srep w F (Some (a, g, z)) vs zs stk.
  Proof.
    intros E S. inversion S; subst; constructor; auto.
    unfold content in *. destruct (attached a); auto.
    destruct H0 as (u & i & Fu & Eu & Hh & R). exists u, i. repeat split; auto.
    unfold frame_handle in *. now rewrite <- E.
  Qed.

  Lemma keeps_Fr own w w' zs zs' C :
    only C w w' -> (forall l, C l -> In l zs) ->
    (forall z, In z zs' -> In z zs \/ (w_map w z = None /\ w_arr w z = None /\ w_val w z = None /\ w_var w z = None)) ->
    keeps_on w w' (Fr own zs) (Fr own zs').
  Proof.
    intros O HC HF. split; [|repeat split].
    - intros l [Hb Hn]. destruct (in_dec Nat.eq_dec l zs') as [I|I].
      + destruct (HF _ I); [contradiction|]. now right.
      + left. split; auto.
    - intros l d [_ Hn]. apply on_map with (C := C); auto.
    - intros l d [_ Hn]. apply on_arr with (C := C); auto.
    - intros l d _. apply (on_val _ _ _ O).
    - intros l d _. apply (on_var _ _ _ O).
  Qed.

  Lemma bounded_fresh w z : bounded w -> (w_next w <= z)%nat ->
    w_map w z = None /\ w_arr w z = None /\ w_val w z = None /\ w_var w z = None.
  Proof.
    intros (A & B & C & D) H. repeat split.
    - destruct (w_map w z) eqn:E; auto. apply C in E. lia.
    - destruct (w_arr w z) eqn:E; auto. apply D in E. lia.
    - destruct (w_val w z) eqn:E; auto. apply A in E. lia.
    - destruct (w_var w z) eqn:E; auto. apply B in E. lia.
  Qed.

  (** A closed top container represents its frame. *)
  Lemma content_close w (F : nat -> Prop) z f i :
    F z -> frame_handle f z i -> content w F None z f -> rep_obj tn w F i (close f).
  Proof.
    intros Hz Hh Hc. unfold frame_handle in Hh. destruct f as [es|ds]; cbn in *; destruct Hc as (d & R & E).
    - eapply rep_map; eauto.
    - eapply rep_arr; eauto.
  Qed.

  (** Popping a child attached to the frame below. *)
  Lemma content_pop w (F : nat -> Prop) a f z g z' :
    F z -> content w F None z f -> content w F (Some (a, f, z)) z' g -> content w F None z' (att_put a (close f) g).
  Proof.
    intros Hz Hc Hp. unfold content in Hp.
    assert (V : attached a = false -> att_put a (close f) g = g) by (destruct a; cbn; congruence).
    destruct (attached a) eqn:Ea; [|rewrite V; auto].
    destruct Hp as (u & i & Fu & Eu & Hh & R).
    assert (RV : rep_value tn w F (Some u) (close f)).
    { apply rep_some with (i := i); auto. apply content_close with (z := z); auto. }
    assert (G : att_put a (close f) g = put_doc (akey a) (Some (close f)) g).
    { destruct a; cbn in *; congruence. }
    rewrite G. destruct g as [es|ds]; cbn; destruct R as (d & R & E).
    - exists (dict_set d (akey a) (Some u)). split; auto. now apply rep_members_set.
    - exists (d ++ [Some u]). split; auto. apply rep_elems_app; auto. now apply rep_elems_one.
  Qed.
End Stack.

(** ** New containers form trees *)
Ltac ownlia := intros;
  repeat match goal with H : _ /\ _ |- _ => destruct H end; repeat split; auto; try lia;
  match goal with H : forall l, (_ <= l)%nat -> ?own l |- ?own _ => apply H; cbn in *; lia | _ => idtac end.
Record tree_inv (own : nat -> Prop) (w : world) (pr : option nat) : Prop := {
  ti_val : forall c p v, own c -> slot w c p v ->
    (own v /\ (v < w_next w)%nat)
    /\ exists i, w_val w v = Some i /\ forall l, refers i = Some l -> (own l /\ (l < w_next w)%nat);
  ti_slot : forall c p v c' p', own c -> own c' ->
    slot w c p v -> slot w c' p' v -> c = c' /\ p = p';
  ti_ref : forall c p v i c' p' v' i' l, own c -> own c' ->
    slot w c p v -> slot w c' p' v' -> w_val w v = Some i -> w_val w v' = Some i' ->
    refers i = Some l -> refers i' = Some l -> v = v';
  ti_root : forall m, pr = Some m -> (own m /\ (m < w_next w)%nat)
    /\ forall c p v i, own c -> slot w c p v -> w_val w v = Some i -> refers i <> Some m }.

Lemma tree_same own w w' pr pr' :
  tree_inv own w pr -> (forall l, (w_next w <= l)%nat -> own l) -> only (fun _ => False) w w' ->
  pr' = pr \/ (exists m, pr' = Some m /\ (w_next w <= m < w_next w')%nat) ->
  tree_inv own w' pr'.
Proof.
  intros [A B C D] Bs O Hp. pose proof (on_next _ _ _ O) as N.
  assert (S : forall c p v, slot w' c p v -> slot w c p v) by (intros; eapply on_slot; eauto).
  assert (V : forall c p v i, own c -> slot w' c p v -> w_val w' v = Some i ->
    w_val w v = Some i /\ forall l, refers i = Some l -> (own l /\ (l < w_next w)%nat)).
  { intros c p v i Hc H E. destruct (A c p v Hc (S _ _ _ H)) as (_ & j & Ej & R).
    rewrite (on_val _ _ _ O _ _ Ej) in E. inversion E; subst. auto. }
  split.
  - intros c p v Hc H. destruct (A c p v Hc (S _ _ _ H)) as (L & j & Ej & R). split; [ownlia|].
    exists j. split; [eapply on_val; eauto|]. intros l Hl. apply R in Hl. ownlia.
  - eauto.
  - intros c p v i c' p' v' i' l Hc Hc' H H' E E' R R'.
    apply (C c p v i c' p' v' i' l); auto; [apply (V c p)|apply (V c' p')]; auto.
  - intros m Em. destruct Hp as [->|(m' & -> & Hm)].
    + destruct (D m Em) as [L Q]. split; [ownlia|]. intros c p v i Hc H E. apply (Q c p v i); auto. apply (V c p v i); auto.
    + inversion Em; subst. split; [ownlia|]. intros c p v i Hc H E R. apply (V c p v i) in E as [E Q]; auto.
      apply Q in R. ownlia.
Qed.

Lemma tree_step own w w' pr z p0 u i0 :
  tree_inv own w pr -> (forall l, (w_next w <= l)%nat -> own l) -> only (eq z) w w' ->
  (forall p v, slot w' z p v -> slot w z p v \/ p = p0 /\ v = u) ->
  (w_next w <= u < w_next w')%nat -> w_val w' u = Some i0 ->
  (forall l, refers i0 = Some l -> (w_next w <= l < w_next w')%nat) ->
  tree_inv own w' pr.
Proof.
  intros [A B C D] Bs O Z U Ei R0. pose proof (on_next _ _ _ O) as N.
  assert (S : forall c p v, slot w' c p v -> slot w c p v \/ (c = z /\ p = p0 /\ v = u)).
  { intros c p v H. destruct (Nat.eq_dec z c) as [<-|Ne].
    - destruct (Z _ _ H) as [|[-> ->]]; auto.
    - left. eapply on_slot; eauto. }
  assert (V : forall c p v i, own c -> slot w c p v -> w_val w' v = Some i ->
    (v < w_next w)%nat /\ w_val w v = Some i /\ forall l, refers i = Some l -> (own l /\ (l < w_next w)%nat)).
  { intros c p v i Hc H E. destruct (A c p v Hc H) as (L & j & Ej & R).
    rewrite (on_val _ _ _ O _ _ Ej) in E. inversion E; subst. split; [ownlia|]. auto. }
  assert (Lt : forall c p v, own c -> slot w c p v -> (v < w_next w)%nat).
  { intros c p v Hc H. destruct (A c p v Hc H). ownlia. }
  split.
  - intros c p v Hc H. destruct (S _ _ _ H) as [H0|(-> & -> & ->)].
    + destruct (A c p v Hc H0) as (L & j & Ej & R). split; [ownlia|].
      exists j. split; [eapply on_val; eauto|]. intros l Hl. apply R in Hl. ownlia.
    + split; [ownlia|]. exists i0. split; auto. intros l Hl. apply R0 in Hl. ownlia.
  - intros c p v c' p' Hc Hc' H H'.
    destruct (S _ _ _ H) as [H0|(-> & -> & ->)], (S _ _ _ H') as [H1|(E1 & E2 & E3)]; subst; eauto.
    + apply Lt in H0; auto. ownlia.
    + apply Lt in H1; auto. ownlia.
  - intros c p v i c' p' v' i' l Hc Hc' H H' E E' R R'.
    destruct (S _ _ _ H) as [H0|(-> & -> & ->)], (S _ _ _ H') as [H1|(E1 & E2 & E3)]; subst; auto.
    + apply (C c p v i c' p' v' i' l); auto; [apply (V c p)|apply (V c' p')]; auto.
    + apply (V c p) in E as (_ & _ & Q); auto. apply Q in R. rewrite Ei in E'. inversion E'; subst. apply R0 in R'. ownlia.
    + apply (V c' p') in E' as (_ & _ & Q); auto. apply Q in R'. rewrite Ei in E. inversion E; subst. apply R0 in R. ownlia.
  - intros m Em. destruct (D m Em) as [L Q]. split; [ownlia|]. intros c p v i Hc H E R.
    destruct (S _ _ _ H) as [H0|(-> & -> & ->)].
    + apply (V c p) in E as (_ & E & _); auto. now apply (Q c p v i).
    + rewrite Ei in E. inversion E; subst. apply R0 in R. ownlia.
Qed.

Lemma slot_set_map X h w w' z d k u :
  live X h w' -> w_map w z = Some d -> w_map w' z = Some (dict_set d k (Some u)) ->
  forall p v, slot w' z p v -> slot w z p v \/ p = PKey k /\ v = u.
Proof.
  intros [_ P] E E' p v H. destruct p as [k'|n]; cbn in *.
  - destruct H as (d' & D & G). rewrite E' in D. inversion D; subst. rewrite dict_get_set in G.
    destruct (str_eqb_spec k k').
    + inversion G; subst. auto.
    + left. eauto.
  - destruct H as (l & D & _). exfalso. apply (im_map _ _ P) in E'. apply (im_arr _ _ P) in D.
    destruct E' as (mo & M & _), D as [D _]. congruence.
Qed.
Lemma slot_set_arr X h w w' z l u :
  live X h w' -> w_arr w z = Some l -> w_arr w' z = Some (l ++ [Some u]) ->
  forall p v, slot w' z p v -> slot w z p v \/ p = PIndex (length l) /\ v = u.
Proof.
  intros [_ P] E E' p v H. destruct p as [k'|n]; cbn in *.
  - destruct H as (d' & D & _). exfalso. apply (im_map _ _ P) in D. apply (im_arr _ _ P) in E'.
    destruct D as (mo & M & _), E' as [D _]. congruence.
  - destruct H as (l' & D & G). rewrite E' in D. inversion D; subst.
    destruct (Nat.lt_ge_cases n (length l)).
    + rewrite nth_error_app1 in G by auto. left. eauto.
    + rewrite nth_error_app2 in G by auto. destruct (n - length l)%nat as [|q] eqn:Q; cbn in G; [|destruct q; discriminate].
      inversion G; subst. right. split; auto. f_equal. ownlia.
Qed.

(** Trees have no sharing. *)
Scheme object_at_mut := Minimality for object_at Sort Prop
  with value_at_mut := Minimality for value_at Sort Prop.
Combined Scheme at_combined from object_at_mut, value_at_mut.

Lemma tree_no_sharing own w m : tree_inv own w (Some m) -> no_sharing w m.
Proof.
  intros [A B C D]. destruct (D m eq_refl) as [Lm Rm].
  assert (V : (forall p l, object_at w m p l -> own l)
    /\ (forall p v, value_at w m p v -> exists c x, own c /\ slot w c x v)).
  { apply at_combined.
    - ownlia.
    - intros p v i l _ (c & x & Hc & H) E R. destruct (A c x v Hc H) as (_ & j & Ej & Q).
      rewrite E in Ej. inversion Ej; subst. apply Q in R. ownlia.
    - intros p x c v _ Hc H. eauto. }
  destruct V as [VO VV].
  assert (U : (forall p l, object_at w m p l -> forall q, object_at w m q l -> p = q)
    /\ (forall p v, value_at w m p v -> forall q, value_at w m q v -> p = q)).
  { apply at_combined.
    - intros q H. inversion H as [|? v i ? V E R]; subst; auto. exfalso.
      destruct (VV _ _ V) as (c & x & Hc & S). now apply (Rm c x v i).
    - intros p v i l V IH E R q H. inversion H as [|? v' i' ? V' E' R']; subst.
      + exfalso. destruct (VV _ _ V) as (c & x & Hc & S). now apply (Rm c x v i).
      + apply IH. destruct (VV _ _ V) as (c & x & Hc & S), (VV _ _ V') as (c' & x' & Hc' & S').
        now rewrite (C c x v i c' x' v' i' l).
    - intros p x c v O IH S q H. inversion H as [q1 y c' ? O' S']; subst.
      destruct (B c x v c' y) as [<- <-]; eauto. f_equal. auto. }
  destruct U as [U1 U2]. split; intros; [eapply U2|eapply U1]; eauto.
Qed.
