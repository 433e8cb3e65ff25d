(** * Float getters *)
From Coq Require Import Ascii String List NArith ZArith Bool Lia.
From Verif Require Import GoStr StrLemmas GoNum NumLemmas GoFloat Heap Common ValueModel ArrayModel MapModel GetterModel
  SpecDict SpecWorld Inv World Reach SpecNum SpecFloat FloatFacts GetterFacts GetterLift SpecDoc SpecToken TokenFacts
  SpecRender ShowFacts SpecRound RoundFacts StableFacts RoundMore.
Import ListNotations.
Local Open Scope Z_scope.

(** [x] is the number [n/d]. *)
Lemma round_signed_eq k neg n d f : 0 <= n -> 0 < d -> rounds_to k neg n d (Some f) -> fst (round_signed k neg n d) = f.
Proof.
  intros N D R. pose proof (rounds_to_fun _ _ _ _ _ _ D R (rounds_to_round k neg n d N D)) as E.
  unfold round_opt in E. unfold round_signed. destruct (round_pos k n d) as [[m e]|]; cbn; congruence.
Qed.

Lemma f32_f64 m e : in_format F32 m e -> in_format F64 m e.
Proof.
  intros [M E]. cbn [prec emin emax] in *. split; cbn [prec emin emax]; [|lia].
  change (2 ^ 24) with 16777216 in M. change (2 ^ 53) with 9007199254740992. lia.
Qed.

Lemma exact_no_overflow k n d m e : 0 < d -> in_format k m e -> n * 2 ^ 1074 = units m e * d -> ~ overflows k n d.
Proof.
  intros D F E O. apply in_format_bound in F as [_ U]. unfold overflows in O.
  pose proof (pow2_pos 1074 ltac:(lia)) as P.
  assert (Q : 0 < 2 ^ emax k) by (apply pow2_pos; destruct k; cbn; lia).
  revert E O U P Q. generalize (2 ^ 1074)%Z as A, (2 ^ emax k)%Z as B, (units m e) as u, (2 ^ prec k)%Z as C.
  intros A B u C E O U P Q.
  assert ((2 * C - 1) * B * d * A <= 2 * (u * d)) by nia.
  assert (u * d <= (C - 1) * B * A * d) by nia.
  assert (0 < B * d * A) by nia. nia.
Qed.

(** The number [n/d] is a number of the format. *)
Lemma rounds_exact k neg n d m e : 0 < d -> 0 <= n -> in_format k m e -> n * 2 ^ 1074 = units m e * d ->
  exists m' e', rounds_to k neg n d (Some (FFin neg m' e')) /\ normal_form k m' e' /\ units m' e' = units m e.
Proof.
  intros D N F E. pose proof (rounds_to_round k neg n d N D) as R. unfold round_opt in R.
  destruct (round_pos k n d) as [[m' e']|].
  - exists m', e'. pose proof R as R'. apply rounds_some in R' as (_ & m2 & e2 & Q & Nr). inversion Q; subst m2 e2.
    split; auto. split; [apply Nr|]. destruct Nr as (_ & Mn & _). specialize (Mn m e F). unfold dist in Mn.
    rewrite E, Z.sub_diag in Mn. cbn [Z.abs] in Mn.
    assert (units m e * d - units m' e' * d = 0) as Q0 by lia. apply (Z.mul_reg_r _ _ d); lia.
  - exfalso. destruct R as [[O _]|(_ & ? & ? & O & _)]; [|discriminate]. eapply exact_no_overflow; eauto.
Qed.

Lemma ratio_units m e : 0 <= m -> -1074 <= e -> exists n d, 0 <= n /\ 0 < d /\ n * 2 ^ 1074 = units m e * d
  /\ forall k neg, flt_conv k (FFin neg m e) = fst (round_signed k neg n d).
Proof.
  intros M E. destruct (Z.leb_spec 0 e) as [L|L].
  - exists (m * 2 ^ e), 1. assert (0 < 2 ^ e) by (apply pow2_pos; lia). split; [nia|]. split; [lia|]. split.
    + unfold units. rewrite Z.pow_add_r by lia. ring.
    + intros k neg. cbn [flt_conv]. destruct (Z.leb_spec 0 e); [reflexivity|lia].
  - exists m, (2 ^ (- e)). split; auto. split; [apply pow2_pos; lia|]. split.
    + unfold units. rewrite (pow2_split 1074 (e + 1074) (- e)) by lia. ring.
    + intros k neg. cbn [flt_conv]. destruct (Z.leb_spec 0 e); [lia|reflexivity].
Qed.

Lemma conv_exact k neg m e m' e' : 0 <= m -> -1074 <= e -> in_format k m' e' -> units m' e' = units m e ->
  exists a b, flt_conv k (FFin neg m e) = FFin neg a b /\ normal_form k a b /\ units a b = units m e.
Proof.
  intros M E F U. destruct (ratio_units m e M E) as (n & d & N & D & Q & C).
  destruct (rounds_exact k neg n d m' e' D N F) as (a & b & R & NF & Ua); [now rewrite U|].
  exists a, b. split; [|split; [auto|congruence]]. rewrite C. now apply round_signed_eq.
Qed.

Lemma fixed_text_units neg m e m' e' s : units m e = units m' e' -> fixed_text neg m e s -> fixed_text neg m' e' s.
Proof. intros U (i & f & z & A). exists i, f, z. now rewrite <- U. Qed.

(** Narrowing through text. *)
Lemma narrow_float neg m e : 0 <= m -> -1074 <= e -> forall z f,
  nearest_integer (units m e * 10 ^ 6) (2 ^ 1074) z -> rounds_to F32 neg z (10 ^ 6) f ->
  narrow_float32 (FFin neg m e) = match f with Some g => GVal g | None => GErr [EFloatRange] end.
Proof.
  intros M E z f Z R. unfold narrow_float32.
  destruct (fixed_text_format neg m e M E) as (i & g & z' & -> & Nu & _ & L & Z').
  assert (z' = z) as -> by exact (nearest_integer_fun _ _ _ _ (pow2_pos 1074 ltac:(lia)) Z' Z).
  rewrite (parse_fraction F32 neg _ z (10 ^ 6) f (fraction_fixed i g z Nu L) R).
  destruct f as [f|]; [|reflexivity]. f_equal.
  apply rounds_some in R as (_ & m' & e' & -> & Nr). pose proof (proj1 Nr) as NF.
  pose proof (emin_range F32 m' e' NF) as [M' E'].
  destruct (conv_exact F32 neg m' e' m' e' M' E' (proj1 NF) eq_refl) as (a & b & -> & NF' & U).
  now destruct (normal_unique F32 _ _ _ _ NF' NF U) as [-> ->].
Qed.

Section F.
  Context (X : ext) (h : heap) (m : nat) (k : str) (s : scalar).
  Hypothesis R : reachable X h.
  Hypothesis Hm : has (w_map (view h)) m.
  Hypothesis Hs : scalar_at (view h) m k = Some s.

  Lemma map_float64 : map_GetFloat64 X h m k = Ok (scalar_float64 s)
    /\ map_GetFloat64Value X h m k = Ok (to_value (scalar_float64 s)).
  Proof.
    destruct (present X h m k s R Hm Hs) as (v & i & Hv & D & _ & _ & Vi).
    unfold map_GetFloat64, map_GetFloat64Value. rewrite !Vi. unfold value_GetFloat64Value.
    rewrite (get_float64 X h v i s Hv D). auto.
  Qed.

  Lemma map_float32 : map_GetFloat32 X h m k
      = Ok (match scalar_float64 s with
            | GVal (Some f) => match narrow_float32 f with GVal g => GVal (Some g) | GErr e => GErr e end
            | GVal None => GVal None
            | GErr e => GErr e
            end)
    /\ map_GetFloat32Value X h m k
      = Ok (match to_value (scalar_float64 s) with GVal f => narrow_float32 f | GErr e => GErr e end).
  Proof.
    destruct (present X h m k s R Hm Hs) as (v & i & Hv & D & _ & _ & Vi).
    unfold map_GetFloat32, map_GetFloat32Value. rewrite !Vi. unfold value_GetFloat32, value_GetFloat32Value.
    rewrite (get_float64 X h v i s Hv D). auto.
  Qed.

  (** ** GetFloat64 *)
  Lemma map_float64_int k0 z : s = SInt k0 z -> fits (x_is64 X) k0 z ->
    exists a b, rounds_to F64 (z <? 0) (Z.abs z) 1 (Some (FFin (z <? 0) a b))
      /\ map_GetFloat64 X h m k = Ok (GVal (Some (FFin (z <? 0) a b)))
      /\ map_GetFloat64Value X h m k = Ok (GVal (FFin (z <? 0) a b))
      /\ (Z.abs z <= 2 ^ 53 -> units a b = Z.abs z * 2 ^ 1074).
  Proof.
    intros Es F. destruct map_float64 as [-> ->]. rewrite Es. cbn [scalar_float64 to_value].
    apply fits_64 in F as [F _].
    pose proof (rounds_to_round F64 (z <? 0) (Z.abs z) 1 ltac:(lia) ltac:(lia)) as Rd. unfold round_opt in Rd.
    unfold flt_of_Z, round_signed. destruct (round_pos F64 (Z.abs z) 1) as [[a b]|]; cbn [fst].
    - exists a, b. split; auto. split; auto. split; auto. intros L.
      apply rounds_some in Rd as (_ & a' & b' & Q & _ & Mn & _). inversion Q; subst a' b'.
      assert (exists c d, in_format F64 c d /\ units c d = Z.abs z * 2 ^ 1074) as (c & d & Fc & U).
      { destruct (Z.eq_dec (Z.abs z) (2 ^ 53)) as [Ez|Ne].
        - exists (2 ^ 52), 1. split; [split; cbn [prec emin emax]; lia|]. rewrite Ez. unfold units.
          rewrite <- !Z.pow_add_r by lia. reflexivity.
        - exists (Z.abs z), 0. split; [split; cbn [prec emin emax]; lia|]. reflexivity. }
      specialize (Mn c d Fc). unfold dist in Mn. rewrite U, !Z.mul_1_r, Z.sub_diag in Mn. cbn [Z.abs] in Mn. lia.
    - exfalso. destruct Rd as [[O _]|(_ & ? & ? & O & _)]; [|discriminate]. unfold overflows in O. cbn [prec emax] in O.
      assert (Z.abs z <= 2 ^ 64) by lia.
      assert (2 ^ 65 <= 2 ^ 971) by (apply Z.pow_le_mono_r; lia).
      revert O H H0. generalize (2 ^ 971). change (2 ^ 53) with 9007199254740992. intros A O H H0. change (2 ^ 65) with (2 * 2 ^ 64) in H0. lia.
  Qed.

  Lemma map_float64_f32 neg a b : s = SFlt F32 (FFin neg a b) -> normal_form F32 a b ->
    exists a' b', map_GetFloat64 X h m k = Ok (GVal (Some (FFin neg a' b')))
      /\ map_GetFloat64Value X h m k = Ok (GVal (FFin neg a' b'))
      /\ normal_form F64 a' b' /\ units a' b' = units a b.
  Proof.
    intros Es NF. destruct map_float64 as [-> ->]. rewrite Es. cbn [scalar_float64 to_value].
    pose proof (emin_range F32 a b NF) as [A B].
    destruct (conv_exact F64 neg a b a b A B (f32_f64 _ _ (proj1 NF)) eq_refl) as (a' & b' & -> & N' & U). eauto 6.
  Qed.

  Lemma map_float64_text neg u n d f : s = SStr (sign neg ++ u) -> fraction u n d -> rounds_to F64 neg n d f ->
    map_GetFloat64 X h m k = Ok (match f with Some g => GVal (Some g) | None => GErr [EConv] end)
    /\ map_GetFloat64Value X h m k = Ok (match f with Some g => GVal g | None => GErr [EConv] end).
  Proof.
    intros Es Fr Rd. destruct map_float64 as [-> ->]. rewrite Es. cbn [scalar_float64].
    rewrite (parse_fraction F64 neg u n d f Fr Rd). destruct f; auto.
  Qed.

  (** ** GetFloat32 *)
  Lemma map_float32_fin neg a b : s = SFlt F32 (FFin neg a b) -> normal_form F32 a b ->
    exists z a' b', nearest_integer (units a b * 10 ^ 6) (2 ^ 1074) z /\ 0 <= z /\ nearest F32 z (10 ^ 6) a' b'
      /\ map_GetFloat32 X h m k = Ok (GVal (Some (FFin neg a' b')))
      /\ map_GetFloat32Value X h m k = Ok (GVal (FFin neg a' b')).
  Proof.
    intros Es NF. destruct map_float32 as [-> ->]. rewrite Es. cbn [scalar_float64 to_value].
    pose proof (emin_range F32 a b NF) as [A B].
    destruct (conv_exact F64 neg a b a b A B (f32_f64 _ _ (proj1 NF)) eq_refl) as (c & d & -> & N' & U).
    pose proof (emin_range F64 c d N') as [C D].
    pose proof (micro_nearest a b A B) as Z. pose proof (micro_nonneg a b A) as Zp.
    destruct (rounds_ex F32 neg (micro a b) (10 ^ 6) Zp ltac:(lia)) as (f & Rd).
    destruct f as [f|].
    - pose proof Rd as Rd'. apply rounds_some in Rd' as (_ & a' & b' & -> & Nr).
      exists (micro a b), a', b'. rewrite (narrow_float neg c d C D (micro a b) _ ltac:(now rewrite U) Rd). auto.
    - exfalso. destruct Rd as [[O _]|(_ & ? & ? & O & _)]; [|discriminate].
      eapply fixed_no_overflow; [apply NF|exact Z|exact O].
  Qed.

  Lemma map_float32_exact neg a b : s = SFlt F32 (FFin neg a b) -> normal_form F32 a b ->
    (map_GetFloat32 X h m k = Ok (GVal (Some (FFin neg a b))) <-> exists z, 0 <= z /\ nearest F32 z (10 ^ 6) a b)
    /\ (map_GetFloat32Value X h m k = Ok (GVal (FFin neg a b)) <-> exists z, 0 <= z /\ nearest F32 z (10 ^ 6) a b).
  Proof.
    intros Es NF. destruct (map_float32_fin neg a b Es NF) as (z & a' & b' & Z & Zp & Nr & -> & ->).
    assert (W : (exists z, 0 <= z /\ nearest F32 z (10 ^ 6) a b) <-> (a' = a /\ b' = b)).
    { split.
      - intros (z0 & Z0 & N0). pose proof (reread_float z0 a b z Z0 N0 Z) as Nr'.
        now apply (nearest_unique F32 z (10 ^ 6)).
      - intros [-> ->]. eauto. }
    rewrite W. split; split; try (intros [-> ->]; auto); intros Q; inversion Q; auto.
  Qed.

  Lemma map_float32_large neg a b : s = SFlt F32 (FFin neg a b) -> normal_form F32 a b ->
    16 * 2 ^ 1074 <= units a b ->
    map_GetFloat32 X h m k = Ok (GVal (Some (FFin neg a b))) /\ map_GetFloat32Value X h m k = Ok (GVal (FFin neg a b)).
  Proof.
    intros Es NF L. destruct (map_float32_exact neg a b Es NF) as [-> ->].
    pose proof (emin_range F32 a b NF) as [A B].
    pose proof (large_float _ a b NF L (micro_nearest a b A B)) as Nr. pose proof (micro_nonneg a b A). split; eauto.
  Qed.

  Lemma map_float32_special f : s = SFlt F32 f -> (forall neg a b, f <> FFin neg a b) ->
    map_GetFloat32 X h m k = Ok (GVal (Some f)) /\ map_GetFloat32Value X h m k = Ok (GVal f).
  Proof.
    intros Es N. destruct map_float32 as [-> ->]. rewrite Es. destruct f as [neg a b|[]|]; [destruct (N neg a b eq_refl)| | |]; vm_compute; auto.
  Qed.
End F.

(** Set a float32, then get it. *)
Lemma set_get_float32 X h m k neg a b c :
  reachable X h -> ok_call (view h) c -> normal_form F32 a b ->
  (exists i, c = AMapSet m k i /\ SpecWorld.scalar_of (view h) i = Some (SFlt F32 (FFin neg a b)))
    \/ c = AMapSetScalarValue m k (SFlt F32 (FFin neg a b)) ->
  exists h', run_call c h = Ok (ODone, h') /\ reachable X h'
    /\ (map_GetFloat32 X h' m k = Ok (GVal (Some (FFin neg a b))) <-> exists z, 0 <= z /\ nearest F32 z (10 ^ 6) a b)
    /\ (map_GetFloat32Value X h' m k = Ok (GVal (FFin neg a b)) <-> exists z, 0 <= z /\ nearest F32 z (10 ^ 6) a b)
    /\ (16 * 2 ^ 1074 <= units a b ->
        map_GetFloat32 X h' m k = Ok (GVal (Some (FFin neg a b))) /\ map_GetFloat32Value X h' m k = Ok (GVal (FFin neg a b))).
Proof.
  intros R K NF C. destruct (scalar_after_set X h m k _ c R K C) as (h' & E & R' & Hm & Hs).
  exists h'. split; auto. split; auto.
  destruct (map_float32_exact X h' m k _ R' Hm Hs neg a b eq_refl NF) as [A B]. split; auto. split; auto.
  exact (map_float32_large X h' m k _ R' Hm Hs neg a b eq_refl NF).
Qed.
Lemma set_get_special X h m k f c :
  reachable X h -> ok_call (view h) c -> (forall neg a b, f <> FFin neg a b) ->
  (exists i, c = AMapSet m k i /\ SpecWorld.scalar_of (view h) i = Some (SFlt F32 f)) \/ c = AMapSetScalarValue m k (SFlt F32 f) ->
  exists h', run_call c h = Ok (ODone, h') /\ reachable X h'
    /\ map_GetFloat32 X h' m k = Ok (GVal (Some f)) /\ map_GetFloat32Value X h' m k = Ok (GVal f).
Proof.
  intros R K NF C. destruct (scalar_after_set X h m k _ c R K C) as (h' & E & R' & Hm & Hs).
  exists h'. split; auto. split; auto. exact (map_float32_special X h' m k _ R' Hm Hs f eq_refl NF).
Qed.
