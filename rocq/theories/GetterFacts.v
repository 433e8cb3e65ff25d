(** * Facts about the getters *)
From Coq Require Import Ascii String List NArith ZArith Bool Lia.
From Verif Require Import GoStr StrLemmas GoNum GoFloat Heap Common ValueModel ArrayModel MapModel
  GetterModel SpecDict DictLemmas SpecWorld SpecNum NumLemmas Inv World Reach.
Import ListNotations.
Local Open Scope Z_scope.

Lemma nil_object_IsNil i : nil_object i = common_IsNil i.
Proof. destruct i; reflexivity. Qed.

(** ** From the world to the heap *)
Section S.
  Context (X : ext) (h : heap).
  Hypothesis I : Inv h.

  Let V := view_impl h I.

  Lemma map_GetValue_view m k :
    has (w_map (view h)) m ->
    map_GetValue h m k = Ok (the None (dict_get (map_at (view h) m) k)).
  Proof.
    intros Hm. destruct (has_map _ _ _ V Hm) as (mo & E & _ & _ & _ & T).
    unfold map_GetValue. rewrite (proj2 (rd_map_iff _ _ _) E). cbn [rbind]. now rewrite T.
  Qed.

  Lemma object_at_Some m k i :
    has (w_map (view h)) m -> object_at (view h) m k = Some i ->
    exists v, dict_get (map_at (view h) m) k = Some (Some v) /\ nth_error h v = Some (CVal i)
              /\ ok_iface h i.
  Proof.
    intros Hm H. unfold object_at in H.
    destruct (dict_get (map_at (view h) m) k) as [[v|]|] eqn:E; try discriminate.
    exists v. split; auto. apply (im_val _ _ V) in H. split; auto. eapply inv_val; eauto.
  Qed.

  Lemma object_at_None m k :
    has (w_map (view h)) m -> object_at (view h) m k = None ->
    the None (dict_get (map_at (view h) m) k) = None.
  Proof.
    intros Hm H. unfold object_at in H.
    destruct (dict_get (map_at (view h) m) k) as [[v|]|] eqn:E; auto.
    exfalso. destruct (has_map _ _ _ V Hm) as (mo & Em & _ & Ha & _).
    pose proof (inv_arr _ I _ _ Ha) as F. rewrite Forall_forall in F.
    assert (Hv : ok_oloc h (Some v)).
    { apply F. apply dict_get_In in E. unfold dict_values. change (Some v) with (snd (k, Some v)).
      now apply in_map. }
    destruct Hv as [i Hi]. apply (im_val _ _ V) in Hi. congruence.
  Qed.

  Lemma map_IsNull_view m k :
    has (w_map (view h)) m -> map_IsNull h m k = Ok (absent (view h) m k).
  Proof.
    intros Hm. destruct (has_map _ _ _ V Hm) as (mo & E & _ & _ & _ & T).
    unfold map_IsNull. rewrite (proj2 (rd_map_iff _ _ _) E). cbn [rbind]. rewrite T.
    unfold absent. destruct (object_at (view h) m k) as [i|] eqn:O.
    - destruct (object_at_Some _ _ _ Hm O) as (v & D & Hv & _). rewrite D.
      rewrite (proj2 (rd_val_iff _ _ _) Hv). cbn [rbind]. now destruct i as [| |t [p|]|m0|[m0|]|a|[a|]|v0|[v0|]| | |[?|]|[?|]| |[?|]| | |[?|]|[?|]|? [?|]].
    - pose proof (object_at_None _ _ Hm O) as D.
      destruct (dict_get (map_at (view h) m) k) as [[v|]|]; auto. discriminate.
  Qed.

  Lemma map_via_absent {A} (nr : A) get m k :
    has (w_map (view h)) m -> absent (view h) m k = true -> map_via nr get h m k = Ok nr.
  Proof.
    intros Hm A0. unfold map_via. rewrite map_IsNull_view by auto. rewrite A0. reflexivity.
  Qed.

  Lemma map_via_present m k i :
    has (w_map (view h)) m -> object_at (view h) m k = Some i -> nil_object i = false ->
    exists v, nth_error h v = Some (CVal i) /\ ok_iface h i
      /\ map_GetValue h m k = Ok (Some v)
      /\ forall A (nr : A) get, map_via nr get h m k = get v.
  Proof.
    intros Hm O N. destruct (object_at_Some _ _ _ Hm O) as (v & D & Hv & Oi). exists v.
    assert (G : map_GetValue h m k = Ok (Some v)) by (rewrite map_GetValue_view, D by auto; reflexivity).
    repeat split; auto. intros A nr get. unfold map_via. rewrite map_IsNull_view by auto.
    unfold absent. rewrite O, N. cbn [rbind]. now rewrite G.
  Qed.

  Lemma deref_scalar i s :
    ok_iface h i -> scalar_of (view h) i = Some s ->
    deref h i = Ok (Some s) /\ (i = IScal s \/ exists p, i = IPtr (stype_of s) (Some p)
                                              /\ nth_error h p = Some (CPtr s)).
  Proof.
    intros O H. destruct i as [|s0|t [p|]| | | | | | | | |[?|]|[?|]| |[?|]| | |[?|]|[?|]|? [?|]]; cbn in H; try discriminate.
    - inversion H; subst. auto.
    - destruct (nth_error h p) as [[s1| | |]|] eqn:E; try discriminate. inversion H; subst.
      destruct O as (s2 & E2 & T). rewrite E in E2. inversion E2; subst s2. subst t.
      split; [|right; exists p; auto]. cbn. rewrite (proj2 (rd_ptr_iff _ _ _) E). cbn [rbind].
      assert (R : stype_eqb (stype_of s) (stype_of s) = true).
      { destruct s as [| |k|[|]]; cbn; auto. now destruct k. }
      now rewrite R.
  Qed.

  Lemma scalar_at_present m k s :
    has (w_map (view h)) m -> scalar_at (view h) m k = Some s ->
    exists v i, nth_error h v = Some (CVal i) /\ ok_iface h i
      /\ object_at (view h) m k = Some i
      /\ deref h i = Ok (Some s)
      /\ (i = IScal s \/ exists p, i = IPtr (stype_of s) (Some p) /\ nth_error h p = Some (CPtr s))
      /\ map_GetValue h m k = Ok (Some v)
      /\ forall A (nr : A) get, map_via nr get h m k = get v.
  Proof.
    intros Hm H. unfold scalar_at in H. destruct (object_at (view h) m k) as [i|] eqn:O; [|discriminate].
    assert (N : nil_object i = false).
    { destruct i as [|s0|t [p|]| | | | | | | | |[?|]|[?|]| |[?|]| | |[?|]|[?|]|? [?|]]; cbn in H; try discriminate; auto. }
    destruct (map_via_present _ _ _ Hm O N) as (v & Hv & Oi & G & Vi).
    destruct (deref_scalar _ _ Oi H) as [D E].
    exists v, i. auto 8.
  Qed.
End S.

(** Facts about an interface value that denotes a scalar. *)
Definition denotes (h : heap) (i : iface) (s : scalar) : Prop :=
  i = IScal s \/ exists p, i = IPtr (stype_of s) (Some p) /\ nth_error h p = Some (CPtr s).

Lemma denotes_nil h i s : denotes h i s -> common_IsNil i = false.
Proof. intros [->|(p & -> & _)]; reflexivity. Qed.

Lemma denotes_type X h i s : denotes h i s ->
  common_GetType X i = TScal (stype_of s) \/ common_GetType X i = TPtr (stype_of s).
Proof. intros [->|(p & -> & _)]; cbn; auto. Qed.

Lemma denotes_IsNil X h i s : denotes h i s -> iface_IsNil X i = false.
Proof.
  intros D. unfold iface_IsNil. rewrite (denotes_nil _ _ _ D). cbn [orb].
  assert (R : common_recognised X (common_GetType X i) = true).
  { destruct (denotes_type X _ _ _ D) as [->| ->]; destruct s as [| |k z|[|] f]; reflexivity. }
  now rewrite R.
Qed.

Lemma denotes_deref h i s : denotes h i s -> deref h i = Ok (Some s).
Proof.
  intros [->|(p & -> & E)]; auto. cbn. rewrite (proj2 (rd_ptr_iff _ _ _) E). cbn [rbind].
  assert (R : stype_eqb (stype_of s) (stype_of s) = true).
  { destruct s as [| |k|[|]]; cbn; auto. now destruct k. }
  now rewrite R.
Qed.

(** ** Getters of a Value that denotes a scalar *)
Section G.
  Context (X : ext) (h : heap) (v : loc) (i : iface) (s : scalar).
  Hypothesis Hv : nth_error h v = Some (CVal i).
  Hypothesis D : denotes h i s.

  Let Rd : rd_val h v = Ok i := proj2 (rd_val_iff _ _ _) Hv.

  Lemma get_int64 : value_GetInt64 X h v = Ok (scalar_int64 s).
  Proof.
    unfold value_GetInt64. rewrite Rd. cbn [rbind]. rewrite (denotes_IsNil X _ _ _ D).
    pose proof (denotes_deref _ _ _ D) as E.
    destruct D as [->|(p & -> & _)]; rewrite E; reflexivity.
  Qed.
  Lemma get_uint64 : value_GetUInt64 X h v = Ok (scalar_uint64 s).
  Proof.
    unfold value_GetUInt64. rewrite Rd. cbn [rbind]. rewrite (denotes_IsNil X _ _ _ D).
    now rewrite (denotes_deref _ _ _ D).
  Qed.
  Lemma get_float64 : value_GetFloat64 X h v = Ok (scalar_float64 s).
  Proof.
    unfold value_GetFloat64. rewrite Rd. cbn [rbind]. rewrite (denotes_IsNil X _ _ _ D).
    now rewrite (denotes_deref _ _ _ D).
  Qed.
  Lemma get_boolvalue : value_GetBoolValue X h v =
    Ok (match s with
        | SBool b => GVal b
        | SStr t => match bool_of_text t with Some b => GVal b | None => GErr [EBoolText] end
        | _ => GErr [EType]
        end).
  Proof.
    unfold value_GetBoolValue. rewrite Rd. cbn [rbind]. rewrite (denotes_IsNil X _ _ _ D).
    rewrite (denotes_deref _ _ _ D). cbn [rbind]. now destruct s.
  Qed.
  Lemma get_string t : s = SStr t -> value_GetString_content X h v = Ok (GVal (Some t)).
  Proof.
    intros ->. unfold value_GetString_content, value_GetString. rewrite Rd. cbn [rbind].
    rewrite (denotes_IsNil X _ _ _ D). destruct D as [->|(p & -> & E)].
    - unfold bind, alloc, ret. cbn [rbind]. unfold rd_ptr. now rewrite nth_error_alloc_new.
    - cbn [rbind stype_of]. now rewrite (proj2 (rd_ptr_iff _ _ _) E).
  Qed.
  Lemma get_stringvalue t : s = SStr t -> value_GetStringValue X h v = Ok (GVal t).
  Proof.
    intros ->. unfold value_GetStringValue, value_GetString. rewrite Rd. cbn [rbind].
    rewrite (denotes_IsNil X _ _ _ D). destruct D as [->|(p & -> & E)].
    - unfold bind, alloc, ret. cbn [rbind]. unfold rd_ptr. now rewrite nth_error_alloc_new.
    - cbn [rbind stype_of]. now rewrite (proj2 (rd_ptr_iff _ _ _) E).
  Qed.
  Lemma get_string_panics : stype_of s <> TyStr -> value_GetString_content X h v = Panic.
  Proof.
    intros N. unfold value_GetString_content, value_GetString. rewrite Rd. cbn [rbind].
    rewrite (denotes_IsNil X _ _ _ D). destruct D as [->|(p & -> & E)].
    - destruct s; cbn in *; congruence.
    - destruct (stype_of s); cbn in *; congruence.
  Qed.
  Lemma get_bool : value_GetBool_content X h v =
    Ok (match s with
        | SBool b => GVal (Some b)
        | SStr t => match bool_of_text t with Some b => GVal (Some b) | None => GErr [EBoolText] end
        | _ => GErr [EType]
        end).
  Proof.
    unfold value_GetBool_content, value_GetBool. rewrite Rd. cbn [rbind].
    rewrite (denotes_IsNil X _ _ _ D). pose proof (denotes_deref _ _ _ D) as De.
    destruct D as [->|(p & -> & E)].
    - destruct s; cbn [deref rbind]; auto.
      + destruct (bool_of_text s0); auto. unfold bind, alloc, ret. cbn [rbind].
        unfold rd_ptr. now rewrite nth_error_alloc_new.
      + unfold bind, alloc, ret. cbn [rbind]. unfold rd_ptr. now rewrite nth_error_alloc_new.
    - destruct s; cbn [stype_of] in *; cbn [rbind]; auto.
      + rewrite De. cbn [rbind]. destruct (bool_of_text s0); auto.
        unfold bind, alloc, ret. cbn [rbind]. unfold rd_ptr. now rewrite nth_error_alloc_new.
      + now rewrite (proj2 (rd_ptr_iff _ _ _) E).
  Qed.
End G.

(** ** Integer ranges *)

Definition signed (k : ikind) : bool :=
  match k with KInt | KInt8 | KInt16 | KInt32 | KInt64 => true | _ => false end.

Lemma wrap64_id z : - 2 ^ 63 <= z <= 2 ^ 63 - 1 -> wrap64 z = z.
Proof. intros H. unfold wrap64. rewrite Z.mod_small; lia. Qed.

Lemma in_range_iff b k z : in_range b k z = true <-> int_min b k <= z <= int_max b k.
Proof. unfold in_range. rewrite andb_true_iff, !Z.leb_le. tauto. Qed.

Ltac ranges := cbn [int_min int_max] in *;
  change (2 ^ 7) with 128 in *; change (2 ^ 8) with 256 in *; change (2 ^ 15) with 32768 in *;
  change (2 ^ 16) with 65536 in *; change (2 ^ 31) with 2147483648 in *;
  change (2 ^ 32) with 4294967296 in *; change (2 ^ 63) with 9223372036854775808 in *;
  change (2 ^ 64) with 18446744073709551616 in *.

Lemma in_range_dec b k z :
  in_range b k z = true /\ int_min b k <= z <= int_max b k
  \/ in_range b k z = false /\ ~ (int_min b k <= z <= int_max b k).
Proof.
  destruct (in_range b k z) eqn:E; [left|right]; split; auto.
  - now apply in_range_iff.
  - intros H. apply in_range_iff in H. congruence.
Qed.

Lemma range_int64_mono b k0 z : int_min b k0 <= z <= int_max b k0 ->
  - 2 ^ 63 <= z <= 2 ^ 64 - 1.
Proof. destruct b, k0; ranges; lia. Qed.

(** GetInt64 on a stored integer. *)
Lemma scalar_int64_int b k0 z :
  in_range b k0 z = true -> (k0 = KUInt -> z <= 2 ^ 63 - 1) ->
  scalar_int64 (SInt k0 z) = if z <=? 2 ^ 63 - 1 then GVal (Some z) else GErr [EGreater].
Proof.
  intros R U. apply in_range_iff in R. pose proof (range_int64_mono _ _ _ R) as M.
  destruct (Z.leb_spec z (2 ^ 63 - 1)) as [L|L].
  - destruct k0; unfold scalar_int64; try (rewrite wrap64_id by lia; reflexivity).
    ranges. destruct (Z.ltb_spec 9223372036854775807 z); [lia|]. rewrite wrap64_id; auto. ranges. lia.
  - destruct k0; try (exfalso; destruct b; ranges; lia).
    + specialize (U eq_refl). ranges; lia.
    + unfold scalar_int64. ranges. destruct (Z.ltb_spec 9223372036854775807 z); [auto|lia].
Qed.

(** Every signed getter on a stored integer. *)
Lemma value_GetInt_exact X h v i k0 z k :
  nth_error h v = Some (CVal i) -> denotes h i (SInt k0 z) ->
  signed k = true -> in_range (x_is64 X) k0 z = true -> (k0 = KUInt -> z <= 2 ^ 63 - 1) ->
  exists r, value_GetIntKind k X h v = Ok r
    /\ if in_range (x_is64 X) k z then r = GVal (Some z) else exists e, r = GErr [e].
Proof.
  intros Hv D Sg R U.
  pose proof (get_int64 X h v i _ Hv D) as G. rewrite (scalar_int64_int _ _ _ R U) in G.
  apply in_range_iff in R. pose proof (range_int64_mono _ _ _ R) as M.
  assert (Q : forall lo hi, - 2 ^ 63 <= lo -> hi <= 2 ^ 63 - 1 ->
     narrow lo hi (if z <=? 2 ^ 63 - 1 then GVal (Some z) else GErr [EGreater])
     = if (lo <=? z) && (z <=? hi) then GVal (Some z)
       else if z <=? 2 ^ 63 - 1 then GErr [ERange] else GErr [EGreater]).
  { intros lo hi H1 H2. destruct (Z.leb_spec z (2 ^ 63 - 1)); cbn [narrow].
    - rewrite !Z.ltb_antisym. destruct (lo <=? z), (z <=? hi); reflexivity.
    - destruct (Z.leb_spec z hi); [lia|]. now rewrite andb_false_r. }
  assert (W : forall lo hi, - 2 ^ 63 <= lo -> hi <= 2 ^ 63 - 1 -> int_min (x_is64 X) k = lo ->
      int_max (x_is64 X) k = hi ->
      exists r, (r0 <-r value_GetInt64 X h v ;; Ok (narrow lo hi r0)) = Ok r
        /\ if in_range (x_is64 X) k z then r = GVal (Some z) else exists e, r = GErr [e]).
  { intros lo hi H1 H2 E1 E2. rewrite G. cbn [rbind]. rewrite (Q lo hi) by auto.
    unfold in_range. rewrite E1, E2. eexists. split; [reflexivity|].
    destruct ((lo <=? z) && (z <=? hi)); auto. destruct (z <=? 2 ^ 63 - 1); eauto. }
  assert (W64 : int_min (x_is64 X) k = - 2 ^ 63 -> int_max (x_is64 X) k = 2 ^ 63 - 1 ->
      exists r, value_GetInt64 X h v = Ok r
        /\ if in_range (x_is64 X) k z then r = GVal (Some z) else exists e, r = GErr [e]).
  { intros E1 E2. rewrite G. eexists. split; [reflexivity|]. unfold in_range. rewrite E1, E2.
    destruct (Z.leb_spec (- 2 ^ 63) z); [|lia]. cbn [andb]. destruct (z <=? 2 ^ 63 - 1); eauto. }
  destruct k; try discriminate; cbn [value_GetIntKind].
  - unfold value_GetInt. destruct (x_is64 X) eqn:E64.
    + apply W64; reflexivity.
    + unfold value_GetInt32. apply W; reflexivity || (ranges; lia).
  - unfold value_GetInt8. apply W; reflexivity || (ranges; lia).
  - unfold value_GetInt16. apply W; reflexivity || (ranges; lia).
  - unfold value_GetInt32. apply W; reflexivity || (ranges; lia).
  - apply W64; reflexivity.
Qed.

(** Every unsigned getter on a stored integer. *)
Lemma scalar_uint64_int b k0 z :
  in_range b k0 z = true ->
  scalar_uint64 (SInt k0 z) = if 0 <=? z then GVal (Some z) else GErr [ENegative].
Proof.
  intros R. apply in_range_iff in R.
  destruct k0; cbn [scalar_uint64]; auto; ranges; destruct (Z.leb_spec 0 z); auto; lia.
Qed.

Lemma value_GetUInt_exact X h v i k0 z k :
  nth_error h v = Some (CVal i) -> denotes h i (SInt k0 z) ->
  signed k = false -> k <> KUInt -> in_range (x_is64 X) k0 z = true ->
  exists r, value_GetIntKind k X h v = Ok r
    /\ if in_range (x_is64 X) k z then r = GVal (Some z) else exists e, r = GErr [e].
Proof.
  intros Hv D Sg NU R.
  pose proof (get_uint64 X h v i _ Hv D) as G. rewrite (scalar_uint64_int _ _ _ R) in G.
  apply in_range_iff in R. pose proof (range_int64_mono _ _ _ R) as M.
  assert (W : forall hi, 0 <= hi -> int_min (x_is64 X) k = 0 -> int_max (x_is64 X) k = hi ->
      exists r, (r0 <-r value_GetUInt64 X h v ;; Ok (narrow 0 hi r0)) = Ok r
        /\ if in_range (x_is64 X) k z then r = GVal (Some z) else exists e, r = GErr [e]).
  { intros hi H1 E1 E2. rewrite G. cbn [rbind]. eexists. split; [reflexivity|].
    unfold in_range. rewrite E1, E2. destruct (Z.leb_spec 0 z); cbn [narrow andb]; eauto.
    rewrite !Z.ltb_antisym. destruct (Z.leb_spec 0 z); [|lia].
    destruct (z <=? hi); cbn; eauto. }
  destruct k; try discriminate; try congruence; cbn [value_GetIntKind].
  - unfold value_GetUInt8. apply W; reflexivity || (ranges; lia).
  - unfold value_GetUInt16. apply W; reflexivity || (ranges; lia).
  - unfold value_GetUInt32. apply W; reflexivity || (ranges; lia).
  - rewrite G. eexists. split; [reflexivity|]. unfold in_range. ranges.
    destruct (Z.leb_spec 0 z); cbn [andb]; eauto.
    destruct (Z.leb_spec z (18446744073709551616 - 1)); [auto|lia].
Qed.
