(** * Containers are shared by reference *)
From Coq Require Import Ascii String List NArith ZArith Bool Lia.
From Verif Require Import GoStr StrLemmas GoNum GoFloat Heap Common ValueModel ArrayModel MapModel
  GetterModel SpecDict DictLemmas SpecWorld Inv World Reach MapFacts GetterFacts
  GetterFrame GetterLift GetterMore ObjFacts.
Import ListNotations.
Local Open Scope Z_scope.

Lemma slot_frame w c m k v i :
  bounded w -> ok_call w c -> (forall d, w_map w m = Some d -> dict_ok d) ->
  w_map w m <> None ->
  dict_get (map_at w m) k = Some (Some v) -> w_val w v = Some i -> ~ touches m k v c ->
  let w' := snd (spec_call c w) in
  w_map w' m <> None /\ dict_get (map_at w' m) k = Some (Some v) /\ w_val w' v = Some i.
Proof.
  intros (B1 & B2 & B3 & B4) K Dk Hm Hd Hv T.
  assert (Lm : (m < w_next w)%nat) by (destruct (w_map w m) eqn:E; [eauto|congruence]).
  assert (Lv : (v < w_next w)%nat) by eauto.
  assert (Pv : forall n x, (w_next w <= n)%nat -> put (w_val w) n x v = Some i).
  { intros n x Hn. unfold put. destruct (Nat.eqb_spec v n); [lia|auto]. }
  destruct c as [s|p s|p|j| | |m' k' o|m' k' j|m' k' s|m' k'|m' k'|m' k'|m'|m'|a o|a j|a n o|a n|a|a|v' j|v'];
    cbn in *; try (split; [|split]; auto; fail).
  - (* NewMap *) unfold map_at in *. cbn. unfold put. destruct (Nat.eqb_spec m (S (w_next w))); [lia|auto].
  - unfold map_at in *. cbn. unfold put. destruct (Nat.eqb_spec m m'); [|auto]. subst m'. cbn.
    rewrite dict_get_set. destruct (str_eqb_spec k' k); [tauto|]. repeat split; auto; congruence.
  - unfold map_at in *. cbn. rewrite Pv by auto. unfold put. destruct (Nat.eqb_spec m m'); [|auto]. subst m'. cbn.
    rewrite dict_get_set. destruct (str_eqb_spec k' k); [tauto|]. repeat split; auto; congruence.
  - unfold map_at in *. cbn. rewrite Pv by lia. unfold put. destruct (Nat.eqb_spec m m'); [|auto]. subst m'. cbn.
    rewrite dict_get_set. destruct (str_eqb_spec k' k); [tauto|]. repeat split; auto; congruence.
  - destruct (dict_has (map_at w m') k') eqn:Hk; cbn; auto. unfold map_at in *. cbn. unfold put.
    destruct (Nat.eqb_spec m m'); [|auto]. subst m'. cbn.
    destruct (w_map w m) as [d|] eqn:E; [|congruence]. cbn in *.
    rewrite dict_get_remove by auto. destruct (str_eqb_spec k' k); [tauto|]. repeat split; auto; congruence.
  - destruct (valid_index _ _); cbn; auto.
  - destruct (valid_index _ _); cbn; auto.
  - unfold put. destruct (Nat.eqb_spec v v'); [subst; tauto|auto].
Qed.

Lemma slot_history X cs : forall h m k v i os h',
  reachable X h -> ok_calls cs (view h) -> has (w_map (view h)) m ->
  dict_get (map_at (view h) m) k = Some (Some v) -> w_val (view h) v = Some i ->
  Forall (fun c => ~ touches m k v c) cs -> run_calls cs h = Ok (os, h') ->
  has (w_map (view h')) m /\ object_at (view h') m k = Some i.
Proof.
  induction cs as [|c cs IH]; intros h m k v i os h' R K Hm Hd Hv T E.
  - cbn in E. inversion E; subst. split; auto. unfold object_at. now rewrite Hd.
  - destruct K as [K1 K2]. inversion T as [|? ? T1 T2]; subst.
    destruct (run_one X h c R K1) as (h1 & E1 & R1 & P1).
    pose proof (reachable_Inv _ _ R) as I. pose proof (view_impl _ I) as P.
    pose proof (reachable_Inv _ _ R1) as I1. pose proof (view_impl _ I1) as V1.
    cbn [run_calls] in E. unfold bind in E. rewrite E1 in E.
    destruct (run_calls cs h1) as [[os2 h2]| | |] eqn:E2; try discriminate. inversion E; subst.
    assert (K2' : ok_calls cs (view h1)) by (eapply ok_calls_impl; [exact I1|exact P1|exact V1|exact K2]).
    pose proof (slot_frame (view h) c m k v i (impl_bounded _ _ P) K1) as S.
    destruct (impl_eq _ _ _ V1 P1) as (_ & Em & _ & Ev & _).
    destruct S as (S1 & S2 & S3); auto.
    { intros d D. exact (reachable_map_ok _ _ _ _ R D). }
    { destruct Hm as [d Hd0]. rewrite Hd0. discriminate. }
    eapply (IH h1 m k v i); eauto.
    + unfold has. rewrite Em. destruct (w_map _ m); [eauto|congruence].
    + unfold map_at. rewrite Em. exact S2.
    + now rewrite Ev.
Qed.

Lemma shared_container X h m k v i z cs os h' :
  reachable X h -> has (w_map (view h)) m ->
  dict_get (map_at (view h) m) k = Some (Some v) -> w_val (view h) v = Some i ->
  ok_calls cs (view h) -> Forall (fun c => ~ touches m k v c) cs -> run_calls cs h = Ok (os, h') ->
  (i = IMap z \/ i = IPMap (Some z) ->
     map_GetMap X h' m k = Ok (GVal (Some z)) /\ map_GetMapValue X h' m k = Ok (GVal z))
  /\ (i = IArr z \/ i = IPArr (Some z) ->
     map_GetArray X h' m k = Ok (GVal (Some z)) /\ map_GetArrayValue X h' m k = Ok (GVal z)).
Proof.
  intros R Hm Hd Hv K T E.
  destruct (slot_history X cs h m k v i os h' R K Hm Hd Hv T E) as [Hm' Ob'].
  apply get_map_handle; auto. eapply reachable_run_calls; eauto.
Qed.

(** Storing a container: which Value holds it. *)
Lemma set_slot X h m k i :
  reachable X h -> has (w_map (view h)) m -> ok_object (view h) i ->
  exists h', run_call (AMapSet m k i) h = Ok (ODone, h') /\ reachable X h' /\ has (w_map (view h')) m
    /\ dict_get (map_at (view h') m) k = Some (Some (w_next (view h)))
    /\ w_val (view h') (w_next (view h)) = Some i.
Proof.
  intros R Hm Oi. destruct (run_one _ _ (AMapSet m k i) R (conj Hm Oi)) as (h' & E & R' & P').
  pose proof (reachable_Inv _ _ R') as I'. pose proof (view_impl _ I') as V'.
  destruct (impl_eq _ _ _ V' P') as (_ & Em & _ & Ev & _).
  exists h'. split; [exact E|]. split; auto. unfold has, map_at. rewrite Em, Ev.
  remember (view h) as w eqn:Ew. clear Ew. cbn. unfold put. rewrite !Nat.eqb_refl. cbn.
  split; [eauto|]. split; auto. now rewrite dict_get_set, str_eqb_refl.
Qed.

Lemma shared_set X h m k i z cs :
  reachable X h -> has (w_map (view h)) m -> ok_object (view h) i ->
  exists h1, run_call (AMapSet m k i) h = Ok (ODone, h1) /\ reachable X h1
   /\ (ok_calls cs (view h1) -> Forall (fun c => ~ touches m k (w_next (view h)) c) cs ->
       exists h2, run_calls cs h1 = Ok (fst (spec_calls cs (view h1)), h2) /\ reachable X h2
        /\ (i = IMap z \/ i = IPMap (Some z) ->
              map_GetMap X h2 m k = Ok (GVal (Some z)) /\ map_GetMapValue X h2 m k = Ok (GVal z))
        /\ (i = IArr z \/ i = IPArr (Some z) ->
              map_GetArray X h2 m k = Ok (GVal (Some z)) /\ map_GetArrayValue X h2 m k = Ok (GVal z))).
Proof.
  intros R Hm Oi. destruct (set_slot X h m k i R Hm Oi) as (h1 & E1 & R1 & Hm1 & D1 & V1).
  exists h1. split; auto. split; auto. intros K T.
  destruct (history_out X h1 cs R1 K) as (h2 & E2). exists h2. split; auto.
  split; [eapply reachable_run_calls; eauto|]. eapply shared_container; eauto.
Qed.

(** AppendMap / AppendArray: the new element holds the container. *)
Lemma shared_append X h a i z :
  reachable X h -> has (w_arr (view h)) a -> ok_object (view h) i ->
  exists h1 v l, run_calls [AArrAppend a i; AArrGetValues a] h = Ok ([ODone; OElems (l ++ [Some v])], h1)
    /\ reachable X h1
    /\ (i = IMap z \/ i = IPMap (Some z) ->
          value_GetMap X h1 v = Ok (GVal (Some z))
          /\ arr_GetMap X h1 a (Z.of_nat (length l)) = Ok (GVal z))
    /\ (i = IArr z \/ i = IPArr (Some z) -> value_GetArray X h1 v = Ok (GVal (Some z))).
Proof.
  intros R Ha Oi.
  destruct (history X h [AArrAppend a i; AArrGetValues a] R) as (h1 & E & I1 & _ & P1).
  { remember (view h) as w eqn:Ew. clear Ew. cbn. repeat split; auto. unfold has, put.
    rewrite Nat.eqb_refl. eauto. }
  assert (R1 : reachable X h1).
  { eapply reachable_run_calls; [exact R| |exact E].
    remember (view h) as w eqn:Ew. clear Ew. cbn. repeat split; auto. unfold has, put.
    rewrite Nat.eqb_refl. eauto. }
  pose proof (view_impl _ (reachable_Inv _ _ R)) as P0. pose proof (impl_bounded _ _ P0) as B0.
  remember (view h) as w eqn:Ew. clear Ew.
  exists h1, (w_next w), (SpecWorld.arr_at w a).
  assert (Hv : rd_val h1 (w_next w) = Ok i).
  { apply rd_val_iff. apply (im_val _ _ P1). cbn. unfold put. now rewrite Nat.eqb_refl. }
  assert (Hl : rd_arr h1 a = Ok (SpecWorld.arr_at w a ++ [Some (w_next w)])).
  { apply rd_arr_iff. apply (im_arr _ _ P1). cbn. unfold put. now rewrite Nat.eqb_refl. }
  split; [|split; [exact R1|split]].
  - rewrite E. cbn. unfold SpecWorld.arr_at at 1. cbn. unfold put. rewrite Nat.eqb_refl. reflexivity.
  - intros Hi. assert (G : value_GetMap X h1 (w_next w) = Ok (GVal (Some z))).
    { unfold value_GetMap. rewrite Hv. cbn [rbind]. destruct Hi as [->| ->]; reflexivity. }
    split; auto. unfold arr_GetMap, arr_elem. rewrite Hl. cbn [rbind].
    rewrite app_length. cbn [length].
    destruct (Z.ltb_spec (Z.of_nat (length (SpecWorld.arr_at w a))) 0); [lia|].
    destruct (Z.ltb_spec (Z.of_nat (length (SpecWorld.arr_at w a) + 1) - 1) (Z.of_nat (length (SpecWorld.arr_at w a)))); [lia|].
    rewrite Nat2Z.id, nth_error_app2, Nat.sub_diag by lia. cbn. rewrite G. reflexivity.
  - intros Hi. unfold value_GetArray. rewrite Hv. cbn [rbind]. destruct Hi as [->| ->]; reflexivity.
Qed.
