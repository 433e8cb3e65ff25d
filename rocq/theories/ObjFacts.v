(** * Predicates, text conversion, sharing, constructors *)
From Coq Require Import Ascii String List NArith ZArith Bool Lia Permutation.
From Verif Require Import GoStr StrLemmas GoNum GoFloat Heap Common ValueModel ArrayModel MapModel
  GetterModel SpecDict DictLemmas SpecWorld SpecNum NumLemmas Inv World Reach MapFacts GetterFacts
  GetterFrame GetterLift GetterMore.
Import ListNotations.
Local Open Scope Z_scope.

(** ** Predicates *)

Lemma ikind_eqb_eq a b : ikind_eqb a b = true <-> a = b.
Proof. destruct a, b; cbn; split; congruence. Qed.
Lemma pred_of_spec t u : (pred_of t (TScal u) = true <-> t = u) /\ (pred_of t (TPtr u) = true <-> t = u).
Proof.
  destruct t as [| |k|[|]], u as [| |k'|[|]]; cbn; try (split; split; congruence);
    rewrite ikind_eqb_eq; split; split; congruence.
Qed.

Lemma scalar_predicates X h m k s :
  reachable X h -> has (w_map (view h)) m -> scalar_at (view h) m k = Some s ->
  (forall t, exists b, map_is (pred_of t) X h m k = Ok b /\ (b = true <-> t = stype_of s))
  /\ map_is common_IsMap X h m k = Ok false
  /\ map_is (common_IsArray X) X h m k = Ok false
  /\ (exists b, map_is common_IsInteger X h m k = Ok b /\ (b = true <-> exists kd, stype_of s = TyInt kd))
  /\ (exists b, map_is common_IsFloat X h m k = Ok b /\ (b = true <-> exists kd, stype_of s = TyFlt kd))
  /\ (exists b, map_is common_IsNumber X h m k = Ok b
        /\ (b = true <-> (exists kd, stype_of s = TyInt kd) \/ exists kd, stype_of s = TyFlt kd))
  /\ (map_GetType X h m k = Ok (TScal (stype_of s)) \/ map_GetType X h m k = Ok (TPtr (stype_of s))).
Proof.
  intros R Hm Hs. pose proof (map_pred X h m k s R Hm Hs) as P.
  split; [|split; [|split; [|split; [|split; [|split]]]]].
  - intros t. destruct (pred_of_spec t (stype_of s)) as [A B].
    destruct (P (pred_of t)) as [E|E]; rewrite E; eauto.
  - destruct (P common_IsMap) as [E|E]; exact E.
  - destruct (P (common_IsArray X)) as [E|E]; exact E.
  - destruct (P common_IsInteger) as [E|E]; rewrite E; eexists; (split; [reflexivity|]);
      destruct s as [| |kd|[|]]; cbn; split; try congruence; eauto; intros [? ?]; congruence.
  - destruct (P common_IsFloat) as [E|E]; rewrite E; eexists; (split; [reflexivity|]);
      destruct s as [| |kd|[|]]; cbn; split; try congruence; eauto; intros [? ?]; congruence.
  - destruct (P common_IsNumber) as [E|E]; rewrite E; eexists; (split; [reflexivity|]);
      destruct s as [| |kd|[|]]; cbn; split; try congruence; eauto; intros [[? ?]|[? ?]]; congruence.
  - now apply map_type.
Qed.

Lemma container_predicates X h m k i :
  reachable X h -> has (w_map (view h)) m -> object_at (view h) m k = Some i ->
  (cat_of (view h) i = Some CatMap -> map_is common_IsMap X h m k = Ok true
                                      /\ map_is (common_IsArray X) X h m k = Ok false)
  /\ (cat_of (view h) i = Some CatArr -> map_is common_IsMap X h m k = Ok false
                                      /\ map_is (common_IsArray X) X h m k = Ok true)
  /\ (cat_of (view h) i = Some CatMap \/ cat_of (view h) i = Some CatArr ->
        (forall t, map_is (pred_of t) X h m k = Ok false)
        /\ map_is common_IsInteger X h m k = Ok false /\ map_is common_IsFloat X h m k = Ok false
        /\ map_is common_IsNumber X h m k = Ok false).
Proof.
  intros R Hm Ho.
  assert (G : forall c, cat_of (view h) i = Some c -> forall p, map_is p X h m k = Ok (p (common_GetType X i))).
  { intros c Hc p. destruct (via_cat X h m k i c R Hm Ho Hc) as (v & Hv & _ & _ & Vi & _).
    unfold map_is. rewrite Vi. unfold value_is. now rewrite (proj2 (rd_val_iff _ _ _) Hv). }
  assert (T : forall c, cat_of (view h) i = Some c -> common_GetType X i = static_type i).
  { intros c Hc. pose proof (cat_not_nil _ _ _ Hc) as N. unfold common_GetType.
    destruct i as [| |t [p|]|z|[z|]|z|[z|]|z|[z|]| | |[?|]|[?|]| |[?|]| | |[?|]|[?|]|? [?|]]; cbn in N |- *; congruence || reflexivity. }
  assert (M : cat_of (view h) i = Some CatMap -> static_type i = TMap \/ static_type i = TPMap).
  { destruct i as [|s|t [p|]|z|[z|]|z|[z|]|z|[z|]| | |[?|]|[?|]| |[?|]| | |[?|]|[?|]|? [?|]]; cbn; auto; try congruence.
    - destruct s; congruence.
    - destruct (nth_error h p) as [[[]| | |]|]; congruence. }
  assert (A : cat_of (view h) i = Some CatArr -> static_type i = TArr \/ static_type i = TPArr).
  { destruct i as [|s|t [p|]|z|[z|]|z|[z|]|z|[z|]| | |[?|]|[?|]| |[?|]| | |[?|]|[?|]|? [?|]]; cbn; auto; try congruence.
    - destruct s; congruence.
    - destruct (nth_error h p) as [[[]| | |]|]; congruence. }
  split; [|split].
  - intros C. rewrite !(G _ C), (T _ C). destruct (M C) as [->| ->]; auto.
  - intros C. rewrite !(G _ C), (T _ C). destruct (A C) as [->| ->]; auto.
  - intros [C|C].
    + rewrite !(G _ C), (T _ C). split; [|destruct (M C) as [->| ->]; auto].
      intros t. rewrite (G _ C), (T _ C). destruct (M C) as [->| ->]; destruct t as [| | |[|]]; reflexivity.
    + rewrite !(G _ C), (T _ C). split; [|destruct (A C) as [->| ->]; auto].
      intros t. rewrite (G _ C), (T _ C). destruct (A C) as [->| ->]; destruct t as [| | |[|]]; reflexivity.
Qed.

(** ** Text conversion *)
Lemma conv_scalar X h i s :
  Inv h -> ok_iface h i -> scalar_of (view h) i = Some s ->
  conv_string X h i = Ok (GVal (match s with
                                | SStr t => t | SBool b => bool_text b
                                | SInt k z => int_text k z | SFlt _ f => format_f f end)).
Proof.
  intros I O S. destruct (deref_scalar h i s O S) as [D E].
  unfold conv_string. rewrite (denotes_nil h i s E).
  assert (Q : match i with IVal v | IPVal (Some v) => rd_val h v | _ => Ok i end = Ok i).
  { destruct E as [->|(p & -> & _)]; reflexivity. }
  rewrite Q. cbn [rbind]. unfold conv_held.
  destruct (denotes_type X h i s E) as [->| ->]; rewrite D; cbn [rbind]; destruct s; reflexivity.
Qed.

Lemma int_text_spec is64 k z : fits is64 k z ->
  signed_numeral (int_text k z) z
  /\ (0 <= z -> numeral (int_text k z) z /\ canonical (int_text k z)).
Proof.
  intros F. apply fits_iff, in_range_iff in F.
  assert (U : 0 <= z -> format_int z = format_uint z).
  { intros H. unfold format_int. destruct (Z.ltb_spec z 0); [lia|auto]. }
  destruct (signed k) eqn:S.
  - assert (E : int_text k z = format_int z) by (destruct k; auto; discriminate). rewrite E.
    split; [apply format_int_spec|]. intros H. rewrite U by auto. now apply format_uint_spec.
  - assert (E : int_text k z = format_uint z) by (destruct k; auto; discriminate).
    assert (P : 0 <= z) by (destruct k; try discriminate; cbn in F; lia).
    rewrite E. pose proof (format_uint_spec z P) as [A B]. split; [now left|auto].
Qed.

(** ** Sharing *)
Lemma get_map_handle X h m k i z :
  reachable X h -> has (w_map (view h)) m -> object_at (view h) m k = Some i ->
  (i = IMap z \/ i = IPMap (Some z) ->
     map_GetMap X h m k = Ok (GVal (Some z)) /\ map_GetMapValue X h m k = Ok (GVal z))
  /\ (i = IArr z \/ i = IPArr (Some z) ->
     map_GetArray X h m k = Ok (GVal (Some z)) /\ map_GetArrayValue X h m k = Ok (GVal z)).
Proof.
  intros R Hm Ho. pose proof (reachable_Inv _ _ R) as I. split; intros E.
  - destruct (map_via_present h I m k i Hm Ho) as (v & Hv & _ & G & _); [destruct E as [->| ->]; auto|].
    unfold map_GetMap, map_GetMapValue. rewrite G. cbn [rbind]. unfold value_GetMap, value_GetMapValue.
    rewrite (proj2 (rd_val_iff _ _ _) Hv). cbn [rbind]. destruct E as [->| ->]; auto.
  - destruct (map_via_present h I m k i Hm Ho) as (v & Hv & _ & _ & Vi); [destruct E as [->| ->]; auto|].
    unfold map_GetArrayValue, map_GetArray. rewrite Vi. unfold value_GetArray.
    rewrite (proj2 (rd_val_iff _ _ _) Hv). cbn [rbind]. destruct E as [->| ->]; auto.
Qed.

Lemma object_after_set X h m k i :
  reachable X h -> ok_call (view h) (AMapSet m k i) ->
  exists h', run_call (AMapSet m k i) h = Ok (ODone, h') /\ reachable X h' /\ has (w_map (view h')) m
    /\ object_at (view h') m k = Some i.
Proof.
  intros R K. destruct (run_one _ _ _ R K) as (h' & E & R' & P').
  pose proof (reachable_Inv _ _ R) as I. pose proof (view_impl _ I) as P.
  pose proof (reachable_Inv _ _ R') as I'. pose proof (view_impl _ I') as V'.
  exists h'. split; [exact E|]. split; auto.
  remember (view h) as w eqn:Ew. clear Ew. remember (view h') as u eqn:Eu. clear Eu.
  assert (Hm : has (w_map (snd (spec_call (AMapSet m k i) w))) m)
    by (unfold has; cbn; unfold put; rewrite Nat.eqb_refl; eauto).
  destruct (impl_same_map _ _ P' _ _ V' Hm) as [Hm' Em]. split; auto.
  unfold object_at. rewrite Em. unfold map_at. cbn. unfold put at 1. rewrite Nat.eqb_refl. cbn [the].
  rewrite dict_get_set, str_eqb_refl. eapply impl_same_val; [exact P'|exact V'|].
  cbn. unfold put. now rewrite Nat.eqb_refl.
Qed.

(** Mutations through any handle of the container are seen through every other. *)
Lemma shared_map X h m k z :
  reachable X h -> has (w_map (view h)) m ->
  map_GetMap X h m k = Ok (GVal (Some z)) ->
  has (w_map (view h)) z
  /\ forall k2 i, ok_object (view h) i -> z <> m ->
     exists h', run_call (AMapSet z k2 i) h = Ok (ODone, h')
       /\ reachable X h'
       /\ map_GetMap X h' m k = Ok (GVal (Some z))
       /\ object_at (view h') z k2 = Some i.
Proof.
  intros R Hm G. pose proof (reachable_Inv _ _ R) as I. pose proof (view_impl _ I) as P.
  assert (Hz : has (w_map (view h)) z).
  { unfold map_GetMap in G. rewrite (map_GetValue_view h I m k Hm) in G. cbn [rbind] in G.
    destruct (the None (dict_get (map_at (view h) m) k)) as [v|] eqn:D; [|discriminate].
    unfold value_GetMap in G. destruct (rd_val h v) as [i| | |] eqn:Rv; try discriminate. cbn [rbind] in G.
    apply rd_val_iff in Rv. pose proof (inv_val _ I _ _ Rv) as O.
    destruct (iface_IsNil X i); [discriminate|].
    assert (exists mo, nth_error h z = Some (CMap mo)) as [mo Hmo].
    { destruct i as [|s|t [p|]|y|[y|]|y|[y|]|y|[y|]| | |[?|]|[?|]| |[?|]| | |[?|]|[?|]|? [?|]]; try discriminate; inversion G; subst; exact O. }
    destruct (map_dict_ex _ _ _ I Hmo) as [d Hd]. exists d. now apply (im_map _ _ P). }
  split; auto. intros k2 i Oi N.
  destruct (object_after_set X h z k2 i R (conj Hz Oi)) as (h' & E & R' & Hz' & Ob).
  exists h'. split; [exact E|]. split; [exact R'|]. split; [|exact Ob].
  destruct (set_frame X h (AMapSet z k2 i) z k2 R (conj Hz Oi)) as (h2 & E2 & _ & Fr);
    [right; left; eauto|]. rewrite E in E2. inversion E2; subst h2.
  specialize (Fr GMap m k Hm ltac:(congruence)). cbn [run_getter] in Fr. rewrite G in Fr.
  unfold rmap in Fr. destruct (map_GetMap X h' m k); cbn in Fr; congruence.
Qed.

(** ** Constructors from Go maps and slices *)

(** The Value handle an element is, if it is one. *)
Definition handle (X : ext) (i : iface) : option (option nat) :=
  match common_GetType X i, i with
  | TVal, IVal v => Some (Some v)
  | TPVal, IPVal o => Some o
  | _, _ => None
  end.

Definition put_call (X : ext) (m : nat) (ki : str * iface) : api :=
  match handle X (snd ki) with
  | Some o => AMapSetValue m (fst ki) o
  | None => AMapSet m (fst ki) (snd ki)
  end.
Definition app_call (X : ext) (a : nat) (i : iface) : api :=
  match handle X i with Some o => AArrAppendValue a o | None => AArrAppend a i end.

Lemma wrap_iface_eq X i : wrap_iface X i =
  match handle X i with
  | Some o => ret o
  | None => v <- new_value i ;; ret (Some v)
  end.
Proof. unfold wrap_iface, handle. destruct (common_GetType X i), i; reflexivity. Qed.

Lemma map_put_all_calls X m l : forall h,
  map_put_all X m l h = (run_calls (map (put_call X m) l) ;; ret tt) h.
Proof.
  induction l as [|[k i] l IH]; intros h; auto.
  cbn [map_put_all map run_calls]. unfold bind at 1. rewrite wrap_iface_eq.
  unfold put_call at 1. cbn [fst snd]. destruct (handle X i) as [o|]; unfold bind, ret; cbn [run_call].
  - unfold map_SetValue, bind, ret. destruct (map_setInternal m k o h) as [[[] h1]| | |]; auto.
    rewrite IH. unfold bind, ret. destruct (run_calls _ h1) as [[os h2]| | |]; auto.
  - unfold map_SetObject, bind, ret. destruct (new_value i h) as [[v h1]| | |]; auto.
    destruct (map_setInternal m k (Some v) h1) as [[[] h2]| | |]; auto.
    rewrite IH. unfold bind, ret. destruct (run_calls _ h2) as [[os h3]| | |]; auto.
Qed.

Lemma arr_append_all_calls X a l : forall h,
  arr_append_all X a l h = (run_calls (map (app_call X a) l) ;; ret tt) h.
Proof.
  induction l as [|i l IH]; intros h; auto.
  cbn [arr_append_all map run_calls]. unfold bind at 1. rewrite wrap_iface_eq.
  unfold app_call at 1. destruct (handle X i) as [o|]; unfold bind, ret; cbn [run_call].
  - unfold bind, ret. destruct (arr_AppendValue a o h) as [[[] h1]| | |]; auto.
    rewrite IH. unfold bind, ret. destruct (run_calls _ h1) as [[os h2]| | |]; auto.
  - unfold arr_AppendObject, bind, ret. destruct (new_value i h) as [[v h1]| | |]; auto.
    destruct (arr_AppendValue a (Some v) h1) as [[[] h2]| | |]; auto.
    rewrite IH. unfold bind, ret. destruct (run_calls _ h2) as [[os h3]| | |]; auto.
Qed.

(** What a stored element is: the handle itself, or a fresh Value holding it. *)
Definition stored (X : ext) (w0 w : world) (o : option nat) (i : iface) : Prop :=
  match handle X i with
  | Some o' => o = o'
  | None => exists v, o = Some v /\ (w_next w0 <= v)%nat /\ w_val w v = Some i
  end.

Lemma stored_holds X w0 w o i : stored X w0 w o i -> holds w0 w o i.
Proof.
  unfold stored, holds, fresh_value, handle, common_GetType.
  destruct i as [|s|t [p|]|z|[z|]|z|[z|]|z|[z|]| | |[?|]|[?|]| |[?|]| | |[?|]|[?|]|? [?|]]; cbn; auto; destruct (x_typed_nil X); cbn; auto.
Qed.

Definition keeps (w w' : world) : Prop :=
  (w_next w <= w_next w')%nat
  /\ (forall v, (v < w_next w)%nat -> w_val w' v = w_val w v)
  /\ (forall v, (v < w_next w)%nat -> w_var w' v = w_var w v).

Lemma keeps_refl w : keeps w w.
Proof. repeat split; auto. Qed.
Lemma keeps_trans a b c : keeps a b -> keeps b c -> keeps a c.
Proof.
  intros (A & B & C) (A' & B' & C'). repeat split; [lia| |]; intros v H.
  - rewrite B' by lia. auto.
  - rewrite C' by lia. auto.
Qed.

Lemma stored_keeps X w0 w w' o i : keeps w w' -> (forall v j, w_val w v = Some j -> (v < w_next w)%nat) ->
  stored X w0 w o i -> stored X w0 w' o i.
Proof.
  intros (_ & K & _) L. unfold stored. destruct (handle X i); auto.
  intros (v & -> & H1 & H2). exists v. repeat split; auto. rewrite K; eauto.
Qed.

Definition bounded (w : world) : Prop :=
  (forall v j, w_val w v = Some j -> (v < w_next w)%nat)
  /\ (forall v j, w_var w v = Some j -> (v < w_next w)%nat)
  /\ (forall v j, w_map w v = Some j -> (v < w_next w)%nat)
  /\ (forall v j, w_arr w v = Some j -> (v < w_next w)%nat).

Lemma ok_object_keep w w' i :
  (forall v, has (w_map w) v -> has (w_map w') v) -> (forall v, has (w_arr w) v -> has (w_arr w') v) ->
  (forall v j, w_val w v = Some j -> w_val w' v = Some j) ->
  (forall v j, w_var w v = Some j -> w_var w' v = Some j) -> ok_object w i -> ok_object w' i.
Proof.
  intros A B C D. destruct i as [|s|t [p|]|z|[z|]|z|[z|]|z|[z|]| | |[?|]|[?|]| |[?|]| | |[?|]|[?|]|? [?|]]; cbn; auto.
  - intros (s & H & T). eauto.
  - intros [j H]. exists j. auto.
  - intros [j H]. exists j. auto.
Qed.

Lemma handle_ok X w i o : ok_object w i -> handle X i = Some o -> ok_value_handle w o.
Proof.
  unfold handle. intros O. destruct (common_GetType X i), i as [|s1|t1 p1|z1|z1|z1|z1|z1|[z1|]| | |[?|]|[?|]| |[?|]| | |[?|]|[?|]|? [?|]]; try discriminate;
    intros E; inversion E; subst; cbn in *; auto.
Qed.

Lemma Forall2_weak {A B} (P Q : A -> B -> Prop) l l' :
  (forall a b, P a b -> Q a b) -> Forall2 P l l' -> Forall2 Q l l'.
Proof. intros H F. induction F; constructor; auto. Qed.

(** One put. *)
Lemma put_call_step X w m k i :
  bounded w -> has (w_map w) m -> ok_object w i ->
  let w' := snd (spec_call (put_call X m (k, i)) w) in
  ok_call w (put_call X m (k, i)) /\ bounded w' /\ keeps w w'
  /\ w_arr w' = w_arr w
  /\ (forall v, has (w_map w) v -> has (w_map w') v)
  /\ exists o, stored X w w' o i
      /\ (forall m2, m2 <> m -> w_map w' m2 = w_map w m2)
      /\ w_map w' m = Some (dict_set (map_at w m) k o).
Proof.
  intros B Hm O. pose proof (handle_ok X w i) as HO. unfold put_call, stored. cbn [fst snd].
  destruct B as (B1 & B2 & B3 & B4).
  assert (Lm : (m < w_next w)%nat) by (destruct Hm; eauto).
  destruct (handle X i) as [o|] eqn:Eh; cbn.
  - split; [split; auto|]. split; [|split; [|split; [|split]]].
    + repeat split; cbn; auto. intros v j. unfold put. destruct (Nat.eqb_spec v m); [intros; subst; auto|eauto].
    + repeat split; auto.
    + reflexivity.
    + intros v H. unfold has, put. destruct (Nat.eqb v m); eauto.
    + exists o. repeat split; auto.
      * intros m2 N. unfold put. destruct (Nat.eqb_spec m2 m); congruence.
      * unfold put. now rewrite Nat.eqb_refl.
  - split; [split; auto|]. split; [|split; [|split; [|split]]].
    + repeat split; cbn.
      * intros v j. unfold put. destruct (Nat.eqb_spec v (w_next w)); [lia|]. intros H. apply B1 in H. lia.
      * intros v j H. apply B2 in H. lia.
      * intros v j. unfold put. destruct (Nat.eqb_spec v m); [intros; subst; lia|]. intros H. apply B3 in H. lia.
      * intros v j H. apply B4 in H. lia.
    + repeat split; cbn; auto. intros v H. unfold put. destruct (Nat.eqb_spec v (w_next w)); [lia|auto].
    + reflexivity.
    + intros v H. unfold has, put. destruct (Nat.eqb v m); eauto.
    + exists (Some (w_next w)). repeat split.
      * exists (w_next w). repeat split; auto. unfold put. now rewrite Nat.eqb_refl.
      * intros m2 N. unfold put. destruct (Nat.eqb_spec m2 m); congruence.
      * unfold put. now rewrite Nat.eqb_refl.
Qed.

Lemma put_calls_spec X m l : forall w,
  bounded w -> has (w_map w) m -> Forall (fun ki => ok_object w (snd ki)) l ->
  NoDup (map fst l) -> (forall k, In k (map fst l) -> ~ In k (dict_keys (map_at w m))) ->
  let w' := snd (spec_calls (map (put_call X m) l) w) in
  ok_calls (map (put_call X m) l) w /\ bounded w' /\ keeps w w'
  /\ w_arr w' = w_arr w
  /\ (forall m2, m2 <> m -> w_map w' m2 = w_map w m2)
  /\ exists os, length os = length l
       /\ w_map w' m = Some (map_at w m ++ combine (map fst l) os)
       /\ Forall2 (fun o ki => stored X w w' o (snd ki)) os l.
Proof.
  induction l as [|[k i] l IH]; intros w B Hm O ND Dj; cbn [map fst spec_calls ok_calls].
  - cbn. split; auto. split; auto. split; [apply keeps_refl|]. split; auto. split; auto.
    exists []. split; auto. destruct Hm as [d Hd]. unfold map_at. rewrite Hd. cbn. now rewrite app_nil_r.
  - inversion O as [|? ? O1 O2]; subst. cbn in ND. inversion ND as [|? ? N1 N2]; subst.
    pose proof (put_call_step X w m k i B Hm O1) as S. cbv zeta in S.
    destruct (spec_call (put_call X m (k, i)) w) as [o1 w1] eqn:E1. cbn [snd] in S.
    destruct S as (K1 & B1 & Kp & Ar & Mh & o & St & Om & Md).
    assert (Nk : ~ In k (dict_keys (map_at w m))) by (apply Dj; now left).
    assert (Md' : map_at w1 m = map_at w m ++ [(k, o)]).
    { unfold map_at at 1. rewrite Md. cbn [the]. apply dict_set_notin. now apply dict_get_None. }
    assert (Keep : forall j, ok_object w j -> ok_object w1 j).
    { intros j. destruct B as (b1 & b2 & _). destruct Kp as (_ & k1 & k2).
      apply ok_object_keep; auto.
      - intros v. now rewrite Ar.
      - intros v j0 H. rewrite k1; eauto.
      - intros v j0 H. rewrite k2; eauto. }
    pose proof (IH w1 B1 ltac:(eexists; exact Md)) as IH1.
    destruct (spec_calls (map (put_call X m) l) w1) as [os2 w2] eqn:E2. cbn [snd] in *.
    destruct IH1 as (K2 & B2 & Kp2 & Ar2 & Om2 & os & Lo & Md2 & F2).
    + rewrite Forall_forall in *. intros x Hx. apply Keep. auto.
    + exact N2.
    + intros k' Hk'. rewrite Md'. unfold dict_keys. rewrite map_app, in_app_iff. cbn.
      intros [H|[H|[]]]; [eapply Dj; [right; exact Hk'|exact H]|subst; auto].
    + split; [split; auto|]. split; auto. split; [eapply keeps_trans; eauto|].
      split; [congruence|]. split; [intros m2 N; now rewrite Om2, Om by auto|].
      exists (o :: os). split; [cbn; congruence|]. split.
      * rewrite Md2, Md', <- app_assoc. reflexivity.
      * constructor.
        -- cbn. eapply stored_keeps; [exact Kp2|apply B1|exact St].
        -- eapply Forall2_weak; [|exact F2]. intros o' ki. unfold stored.
           destruct (handle X (snd ki)); auto. intros (v & H1 & H2 & H3). exists v. repeat split; auto.
           destruct Kp. lia.
Qed.

Lemma impl_bounded h w : impl h w -> bounded w.
Proof.
  intros P. repeat split; intros v j H; rewrite (im_next _ _ P).
  - apply (im_val _ _ P) in H. eapply nth_error_lt; eauto.
  - apply (im_var _ _ P) in H. eapply nth_error_lt; eauto.
  - apply (im_map _ _ P) in H as (mo & H & _). eapply nth_error_lt; eauto.
  - apply (im_arr _ _ P) in H as [H _]. eapply nth_error_lt; eauto.
Qed.

Lemma opt_ext {A} (x y : option A) : (forall a, x = Some a <-> y = Some a) -> x = y.
Proof.
  intros H. destruct x as [a|], y as [b|]; auto.
  - now apply H.
  - symmetry. now apply H.
  - now apply H.
Qed.

(** A heap implements one world. *)
Lemma impl_eq h w w' : impl h w -> impl h w' ->
  w_next w = w_next w' /\ (forall l, w_map w l = w_map w' l) /\ (forall l, w_arr w l = w_arr w' l)
  /\ (forall l, w_val w l = w_val w' l) /\ (forall l, w_var w l = w_var w' l).
Proof.
  intros P Q. repeat split.
  - now rewrite (im_next _ _ P), (im_next _ _ Q).
  - intros l. apply opt_ext. intros a. now rewrite (im_map _ _ P), (im_map _ _ Q).
  - intros l. apply opt_ext. intros a. now rewrite (im_arr _ _ P), (im_arr _ _ Q).
  - intros l. apply opt_ext. intros a. now rewrite (im_val _ _ P), (im_val _ _ Q).
  - intros l. apply opt_ext. intros a. now rewrite (im_var _ _ P), (im_var _ _ Q).
Qed.

Lemma ok_calls_impl cs : forall a b hh,
  Inv hh -> impl hh a -> impl hh b -> ok_calls cs a -> ok_calls cs b.
Proof.
  induction cs as [|c cs IH]; intros a b hh Ih Pa Pb; cbn; auto. intros [K1 K2].
      assert (Kb : ok_call b c).
      { destruct (impl_eq _ _ _ Pa Pb) as (_ & Em & Ea & Ev & Er).
        assert (Hm : forall x, has (w_map a) x -> has (w_map b) x) by (intros x [d Hd]; exists d; congruence).
        assert (Ha : forall x, has (w_arr a) x -> has (w_arr b) x) by (intros x [d Hd]; exists d; congruence).
        assert (Hv : forall x, has (w_val a) x -> has (w_val b) x) by (intros x [d Hd]; exists d; congruence).
        assert (Ho : forall o, ok_value_handle a o -> ok_value_handle b o) by (intros [v|]; cbn; auto).
        assert (Hi : forall i, ok_object a i -> ok_object b i).
        { intros i. apply ok_object_keep; auto; intros; congruence. }
        destruct c; cbn [ok_call] in *; intuition auto.
        - destruct K1 as (s0 & H & T). rewrite Er in H. eauto.
        - destruct K1 as [s0 H]. exists s0. congruence. }
      split; auto.
      destruct (run_call_ok _ _ _ Ih Pa K1) as (h2 & Eq & I2 & _ & P2).
      destruct (run_call_ok _ _ _ Ih Pb Kb) as (h3 & Eq3 & I3 & _ & P3).
      rewrite Eq in Eq3. inversion Eq3; subst. eauto.
Qed.

Lemma in_combine_F2 {A B C} (P : B -> C -> Prop) (f : C -> A) (g : list C) os :
  Forall2 P os g -> forall c, In c g -> exists o, In (f c, o) (combine (map f g) os) /\ P o c.
Proof.
  induction 1 as [|o c0 os g H F IH]; intros c; [intros []|]. cbn. intros [->|Hc].
  - exists o. auto.
  - destruct (IH c Hc) as (o' & Ho & Hp). exists o'. auto.
Qed.

Lemma keys_combine {A B} (a : list A) (b : list B) : length b = length a -> map fst (combine a b) = a.
Proof.
  revert b. induction a as [|x a IH]; intros [|y b]; cbn; auto; try discriminate.
  intros H. f_equal. auto.
Qed.

(** NewMapOfValues. *)
Lemma map_of_values X h l :
  reachable X h -> NoDup (map fst l) -> Forall (fun ki => ok_object (view h) (snd ki)) l ->
  exists m h' d, new_map_of_values X (Some l) h = Ok (m, h') /\ reachable X h'
    /\ (w_next (view h) <= m)%nat
    /\ w_map (view h') m = Some d
    /\ dict_keys d = map fst l
    /\ (forall k i, In (k, i) l -> exists o, dict_get d k = Some o /\ stored X (view h) (view h') o i)
    /\ (forall k, ~ In k (map fst l) -> dict_get d k = None)
    /\ (forall m2, m2 <> m -> w_map (view h') m2 = w_map (view h) m2)
    /\ (forall a, w_arr (view h') a = w_arr (view h) a)
    /\ (forall v, (v < w_next (view h))%nat -> w_val (view h') v = w_val (view h) v
                                              /\ w_var (view h') v = w_var (view h) v).
Proof.
  intros R ND O. pose proof (reachable_Inv _ _ R) as I. pose proof (view_impl _ I) as P.
  destruct (run_one X h ANewMap R Logic.I) as (h1 & E1 & R1 & P1).
  pose proof (reachable_Inv _ _ R1) as Iv1.
  remember (view h) as w eqn:Ew. clear Ew.
  pose proof (impl_bounded _ _ P) as B.
  set (w1 := snd (spec_call ANewMap w)) in *.
  set (m := S (w_next w)) in *.
  assert (Hm : w_map w1 m = Some []) by (cbn; unfold put; now rewrite Nat.eqb_refl).
  assert (Kp : keeps w w1) by (repeat split; cbn; auto).
  assert (O1 : Forall (fun ki => ok_object w1 (snd ki)) l).
  { eapply Forall_impl; [|exact O]. intros ki. apply ok_object_keep; auto.
    intros v [d Hd]. exists d. cbn. unfold put. destruct (Nat.eqb_spec v (S (w_next w))); auto.
    subst. apply B in Hd. lia. }
  pose proof (put_calls_spec X m l w1 (impl_bounded _ _ P1) ltac:(eexists; exact Hm) O1 ND) as S.
  assert (Dj : forall k, In k (map fst l) -> ~ In k (dict_keys (map_at w1 m))).
  { unfold map_at. rewrite Hm. cbn. tauto. }
  specialize (S Dj). cbv zeta in S. destruct S as (K & _ & Kp2 & Ar & Om & os & Lo & Md & F).
  assert (K' : ok_calls (map (put_call X m) l) (view h1)).
  { eapply ok_calls_impl; [exact Iv1|exact P1|now apply view_impl|exact K]. }
  destruct (run_calls_ok (map (put_call X m) l) h1 w1 Iv1 P1 K) as (h2 & E2 & I2 & _ & P2).
  assert (R2 : reachable X h2) by (eapply reachable_run_calls; eauto).
  exists m, h2, (combine (map fst l) os).
  unfold new_map_of_values, bind. cbn [run_call] in E1. unfold bind in E1.
  destruct (new_map h) as [[m' h1']| | |]; try discriminate. inversion E1; subst m' h1'.
  rewrite map_put_all_calls. unfold bind. fold m. rewrite E2. unfold ret.
  destruct (impl_eq _ _ _ (view_impl _ I2) P2) as (_ & Em & Ea & Ev & Er).
  set (w2 := snd (spec_calls (map (put_call X m) l) w1)) in *.
  assert (Lk : length os = length (map fst l)) by (rewrite map_length; auto).
  assert (Dk : dict_ok (combine (map fst l) os)) by (unfold dict_ok; now rewrite keys_combine).
  split; [reflexivity|]. split; [exact R2|]. split; [unfold m; lia|]. split; [|split; [|split; [|split; [|split; [|split]]]]].
  - rewrite Em, Md. unfold map_at. now rewrite Hm.
  - now apply keys_combine.
  - intros k i Hki. destruct (in_combine_F2 _ fst _ _ F _ Hki) as (o & Ho & St). exists o. split.
    + now apply dict_In_get.
    + revert St. unfold stored. cbn [snd]. destruct (handle X i); auto.
      intros (v & -> & H1 & H2). exists v. repeat split; auto.
      * cbn in H1. lia.
      * now rewrite Ev.
  - intros k Hk. apply dict_get_None. now rewrite keys_combine.
  - intros m2 N. rewrite Em, Om by auto. cbn. unfold put. fold m. destruct (Nat.eqb_spec m2 m); congruence.
  - intros a. rewrite Ea, Ar. reflexivity.
  - intros v Hv. destruct Kp2 as (H1 & H2 & H3). rewrite Ev, Er, H2, H3 by (cbn; lia). auto.
Qed.

(** NewArrayOfValues. *)
Lemma app_call_step X w a i :
  bounded w -> has (w_arr w) a -> ok_object w i ->
  let w' := snd (spec_call (app_call X a i) w) in
  ok_call w (app_call X a i) /\ bounded w' /\ keeps w w'
  /\ w_map w' = w_map w
  /\ (forall v, has (w_arr w) v -> has (w_arr w') v)
  /\ exists o, stored X w w' o i
      /\ (forall a2, a2 <> a -> w_arr w' a2 = w_arr w a2)
      /\ w_arr w' a = Some (SpecWorld.arr_at w a ++ [o]).
Proof.
  intros B Hm O. pose proof (handle_ok X w i) as HO. unfold app_call, stored.
  destruct B as (B1 & B2 & B3 & B4).
  assert (Lm : (a < w_next w)%nat) by (destruct Hm; eauto).
  destruct (handle X i) as [o|] eqn:Eh; cbn.
  - split; [split; auto|]. split; [|split; [|split; [|split]]].
    + repeat split; cbn; auto. intros v j. unfold put. destruct (Nat.eqb_spec v a); [intros; subst; auto|eauto].
    + repeat split; auto.
    + reflexivity.
    + intros v H. unfold has, put. destruct (Nat.eqb v a); eauto.
    + exists o. repeat split; auto.
      * intros m2 N. unfold put. destruct (Nat.eqb_spec m2 a); congruence.
      * unfold put. now rewrite Nat.eqb_refl.
  - split; [split; auto|]. split; [|split; [|split; [|split]]].
    + repeat split; cbn.
      * intros v j. unfold put. destruct (Nat.eqb_spec v (w_next w)); [lia|]. intros H. apply B1 in H. lia.
      * intros v j H. apply B2 in H. lia.
      * intros v j H. apply B3 in H. lia.
      * intros v j. unfold put. destruct (Nat.eqb_spec v a); [intros; subst; lia|]. intros H. apply B4 in H. lia.
    + repeat split; cbn; auto. intros v H. unfold put. destruct (Nat.eqb_spec v (w_next w)); [lia|auto].
    + reflexivity.
    + intros v H. unfold has, put. destruct (Nat.eqb v a); eauto.
    + exists (Some (w_next w)). repeat split.
      * exists (w_next w). repeat split; auto. unfold put. now rewrite Nat.eqb_refl.
      * intros m2 N. unfold put. destruct (Nat.eqb_spec m2 a); congruence.
      * unfold put. now rewrite Nat.eqb_refl.
Qed.

Lemma app_calls_spec X a l : forall w,
  bounded w -> has (w_arr w) a -> Forall (ok_object w) l ->
  let w' := snd (spec_calls (map (app_call X a) l) w) in
  ok_calls (map (app_call X a) l) w /\ bounded w' /\ keeps w w'
  /\ w_map w' = w_map w
  /\ (forall a2, a2 <> a -> w_arr w' a2 = w_arr w a2)
  /\ exists os, w_arr w' a = Some (SpecWorld.arr_at w a ++ os)
       /\ Forall2 (stored X w w') os l.
Proof.
  induction l as [|i l IH]; intros w B Hm O; cbn [map spec_calls ok_calls].
  - cbn. split; auto. split; auto. split; [apply keeps_refl|]. split; auto. split; auto.
    exists []. split; auto. destruct Hm as [d Hd]. unfold SpecWorld.arr_at. rewrite Hd. cbn. now rewrite app_nil_r.
  - inversion O as [|? ? O1 O2]; subst.
    pose proof (app_call_step X w a i B Hm O1) as S. cbv zeta in S.
    destruct (spec_call (app_call X a i) w) as [o1 w1] eqn:E1. cbn [snd] in S.
    destruct S as (K1 & B1 & Kp & Ar & Mh & o & St & Om & Md).
    assert (Keep : forall j, ok_object w j -> ok_object w1 j).
    { intros j. destruct B as (b1 & b2 & _). destruct Kp as (_ & k1 & k2).
      apply ok_object_keep; auto.
      - intros v. now rewrite Ar.
      - intros v j0 H. rewrite k1; eauto.
      - intros v j0 H. rewrite k2; eauto. }
    pose proof (IH w1 B1 ltac:(eexists; exact Md)) as IH1.
    destruct (spec_calls (map (app_call X a) l) w1) as [os2 w2] eqn:E2. cbn [snd] in *.
    destruct IH1 as (K2 & B2 & Kp2 & Ar2 & Om2 & os & Md2 & F2).
    + eapply Forall_impl; [|exact O2]. auto.
    + split; [split; auto|]. split; auto. split; [eapply keeps_trans; eauto|].
      split; [congruence|]. split; [intros m2 N; now rewrite Om2, Om by auto|].
      exists (o :: os). split.
      * rewrite Md2. unfold SpecWorld.arr_at at 1. rewrite Md. cbn [the]. now rewrite <- app_assoc.
      * constructor.
        -- eapply stored_keeps; [exact Kp2|apply B1|exact St].
        -- eapply Forall2_weak; [|exact F2]. intros o' ki. unfold stored.
           destruct (handle X ki); auto. intros (v & H1 & H2 & H3). exists v. repeat split; auto.
           destruct Kp. lia.
Qed.

Lemma array_of_values X h l :
  reachable X h -> Forall (ok_object (view h)) l ->
  exists a h' os, new_array_of_values X (Some l) h = Ok (a, h') /\ reachable X h'
    /\ (w_next (view h) <= a)%nat
    /\ w_arr (view h') a = Some os
    /\ Forall2 (stored X (view h) (view h')) os l
    /\ (forall m, w_map (view h') m = w_map (view h) m)
    /\ (forall a2, a2 <> a -> w_arr (view h') a2 = w_arr (view h) a2)
    /\ (forall v, (v < w_next (view h))%nat -> w_val (view h') v = w_val (view h) v
                                              /\ w_var (view h') v = w_var (view h) v).
Proof.
  intros R O. pose proof (reachable_Inv _ _ R) as I. pose proof (view_impl _ I) as P.
  destruct (run_one X h ANewArray R Logic.I) as (h1 & E1 & R1 & P1).
  pose proof (reachable_Inv _ _ R1) as Iv1.
  remember (view h) as w eqn:Ew. clear Ew.
  pose proof (impl_bounded _ _ P) as B.
  set (w1 := snd (spec_call ANewArray w)) in *.
  set (a := w_next w) in *.
  assert (Hm : w_arr w1 a = Some []) by (cbn; unfold put; now rewrite Nat.eqb_refl).
  assert (Kp : keeps w w1) by (repeat split; cbn; auto).
  assert (O1 : Forall (ok_object w1) l).
  { eapply Forall_impl; [|exact O]. intros ki. apply ok_object_keep; auto.
    intros v [d Hd]. exists d. cbn. unfold put. destruct (Nat.eqb_spec v (w_next w)); auto.
    subst. apply B in Hd. lia. }
  pose proof (app_calls_spec X a l w1 (impl_bounded _ _ P1) ltac:(eexists; exact Hm) O1) as S.
  cbv zeta in S. destruct S as (K & _ & Kp2 & Ar & Om & os & Md & F).
  assert (K' : ok_calls (map (app_call X a) l) (view h1)).
  { eapply ok_calls_impl; [exact Iv1|exact P1|now apply view_impl|exact K]. }
  destruct (run_calls_ok (map (app_call X a) l) h1 w1 Iv1 P1 K) as (h2 & E2 & I2 & _ & P2).
  assert (R2 : reachable X h2) by (eapply reachable_run_calls; eauto).
  exists a, h2, os.
  unfold new_array_of_values, bind. cbn [run_call] in E1. unfold bind in E1.
  destruct (new_array h) as [[m' h1']| | |]; try discriminate. inversion E1; subst m' h1'.
  rewrite arr_append_all_calls. unfold bind. fold a. rewrite E2. unfold ret.
  destruct (impl_eq _ _ _ (view_impl _ I2) P2) as (_ & Em & Ea & Ev & Er).
  set (w2 := snd (spec_calls (map (app_call X a) l) w1)) in *.
  split; [reflexivity|]. split; [exact R2|]. split; [unfold a; lia|]. split; [|split; [|split; [|split]]].
  - rewrite Ea, Md. unfold SpecWorld.arr_at. now rewrite Hm.
  - eapply Forall2_weak; [|exact F]. intros o i. unfold stored. destruct (handle X i); auto.
    intros (v & -> & H1 & H2). exists v. repeat split; auto.
    * cbn in H1. lia.
    * now rewrite Ev.
  - intros m2. rewrite Em, Ar. reflexivity.
  - intros a2 N. rewrite Ea, Om by auto. cbn. unfold put. fold a. destruct (Nat.eqb_spec a2 a); congruence.
  - intros v Hv. destruct Kp2 as (H1 & H2 & H3). rewrite Ev, Er, H2, H3 by (cbn; lia). auto.
Qed.

Lemma map_of_values_holds X h l :
  reachable X h -> NoDup (map fst l) -> Forall (fun ki => ok_object (view h) (snd ki)) l ->
  exists m h' d, new_map_of_values X (Some l) h = Ok (m, h') /\ reachable X h'
    /\ (w_next (view h) <= m)%nat
    /\ w_map (view h') m = Some d
    /\ dict_keys d = map fst l
    /\ (forall k i, In (k, i) l -> exists o, dict_get d k = Some o /\ holds (view h) (view h') o i)
    /\ (forall k, ~ In k (map fst l) -> dict_get d k = None)
    /\ (forall m2, m2 <> m -> w_map (view h') m2 = w_map (view h) m2)
    /\ (forall a, w_arr (view h') a = w_arr (view h) a)
    /\ (forall v, (v < w_next (view h))%nat -> w_val (view h') v = w_val (view h) v
                                              /\ w_var (view h') v = w_var (view h) v).
Proof.
  intros R N O. destruct (map_of_values X h l R N O) as (m & h' & d & A & B & C & D & E & F & G).
  exists m, h', d. repeat (split; [assumption|]). split; [|exact G].
  intros k i H. destruct (F k i H) as (o & H1 & H2). exists o. split; auto. eapply stored_holds; eauto.
Qed.

Lemma array_of_values_holds X h l :
  reachable X h -> Forall (ok_object (view h)) l ->
  exists a h' os, new_array_of_values X (Some l) h = Ok (a, h') /\ reachable X h'
    /\ (w_next (view h) <= a)%nat
    /\ w_arr (view h') a = Some os
    /\ Forall2 (holds (view h) (view h')) os l
    /\ (forall m, w_map (view h') m = w_map (view h) m)
    /\ (forall a2, a2 <> a -> w_arr (view h') a2 = w_arr (view h) a2)
    /\ (forall v, (v < w_next (view h))%nat -> w_val (view h') v = w_val (view h) v
                                              /\ w_var (view h') v = w_var (view h) v).
Proof.
  intros R O. destruct (array_of_values X h l R O) as (m & h' & os & A & B & C & D & F & G).
  exists m, h', os. repeat (split; [assumption|]). split; [|exact G].
  eapply Forall2_weak; [|exact F]. intros. eapply stored_holds; eauto.
Qed.
