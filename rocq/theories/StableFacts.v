(** * Printing a float with six decimals and reading it back *)
From Coq Require Import Ascii String List NArith ZArith Bool Lia.
From Verif Require Import GoStr GoNum GoFloat Heap SpecNum SpecFloat FloatFacts SpecDoc SpecToken SpecRender ShowFacts.
Import ListNotations.
Local Open Scope Z_scope.

Lemma dist_sym n d m e : dist n d m e = Z.abs (units m e * d - n * 2 ^ 1074).
Proof. unfold dist. rewrite <- Z.abs_opp. f_equal. ring. Qed.

Lemma nearest_integer_exact d z z' : 0 < d -> nearest_integer (z' * d) d z -> z = z'.
Proof.
  intros D [H _]. destruct (Z.eq_dec z z') as [|N]; auto. exfalso.
  replace (z' * d - z * d) with ((z' - z) * d) in H by ring. rewrite Z.abs_mul, (Z.abs_eq d) in H by lia.
  assert (1 <= Z.abs (z' - z)) by lia. nia.
Qed.

Lemma in_format_bound k m e : in_format k m e -> 0 <= units m e <= (2 ^ prec k - 1) * 2 ^ emax k * 2 ^ 1074.
Proof.
  intros [M E]. pose proof (emin_ge k). unfold units.
  assert (P : 0 < 2 ^ (e + 1074)) by (apply pow2_pos; lia).
  assert (Q : 2 ^ (e + 1074) <= 2 ^ emax k * 2 ^ 1074).
  { rewrite <- Z.pow_add_r by (destruct k; cbn; lia). apply Z.pow_le_mono_r; lia. }
  rewrite <- Z.mul_assoc. split; [apply Z.mul_nonneg_nonneg; lia|].
  apply Z.mul_le_mono_nonneg; lia.
Qed.

Lemma fixed_no_overflow k m e z : in_format k m e -> nearest_integer (units m e * 10 ^ 6) (2 ^ 1074) z ->
  ~ overflows k z (10 ^ 6).
Proof.
  intros F [Z0 _] O. apply in_format_bound in F as [_ U]. unfold overflows in O.
  pose proof (pow2_pos 1074 ltac:(lia)) as P.
  assert (Q : 0 < 2 ^ emax k) by (apply pow2_pos; destruct k; cbn; lia).
  revert Z0 O U P Q. generalize (2 ^ 1074)%Z as A, (2 ^ emax k)%Z as B, (units m e) as u, (2 ^ prec k)%Z as C.
  intros A B u C Z0 O U P Q. change (10 ^ 6)%Z with 1000000%Z in *.
  assert ((2 * C - 1) * 1000000 * (B * A) <= 2 * (z * A))%Z by nia.
  assert (u <= (C - 1) * (B * A))%Z by lia.
  assert (A <= B * A)%Z by nia. lia.
Qed.

(** The float nearest to the decimal prints as the same decimal. *)
Lemma stable_decimal k m e z m' e' :
  in_format k m e -> nearest_integer (units m e * 10 ^ 6) (2 ^ 1074) z -> nearest k z (10 ^ 6) m' e' ->
  nearest_integer (units m' e' * 10 ^ 6) (2 ^ 1074) z.
Proof.
  intros F [H T] (NF & Mn & _). specialize (Mn m e F). rewrite !dist_sym in Mn. split; [lia|].
  intros E. apply T. lia.
Qed.


Lemma nearest_exact k n d m e : 0 < d -> normal_form k m e -> n * 2 ^ 1074 = units m e * d -> nearest k n d m e.
Proof.
  intros D NF E. assert (dist n d m e = 0) as Z0 by (unfold dist; rewrite E, Z.sub_diag; reflexivity).
  split; auto. split; rewrite Z0.
  - intros. unfold dist. apply Z.abs_nonneg.
  - intros m' e' F Q N. symmetry in Q. unfold dist in Q. rewrite E in Q. apply Z.abs_0_iff in Q.
    exfalso. apply N. revert Q. generalize (units m e) (units m' e'). clear - D. intros a b Q.
    assert (a * d = b * d) by lia. apply Z.mul_reg_r in H; lia.
Qed.

Lemma nearest_ge k n d m e a b : 0 < d -> nearest k n d m e -> in_format k a b ->
  units a b * d <= n * 2 ^ 1074 -> units a b <= units m e.
Proof.
  intros D (NF & Mn & _) F L. specialize (Mn a b F). rewrite !dist_sym in Mn.
  destruct (Z.le_gt_cases (units a b) (units m e)) as [|G]; auto. exfalso.
  assert (units m e * d < units a b * d) by (apply Z.mul_lt_mono_pos_r; auto). lia.
Qed.

(** Below 16 the decimal is recovered. *)
Lemma small_decimal z m e : 0 <= z < 16 * 10 ^ 6 -> nearest F32 z (10 ^ 6) m e ->
  nearest_integer (units m e * 10 ^ 6) (2 ^ 1074) z.
Proof.
  intros R (NF & Mn & _).
  destruct (rne_spec (z * 2 ^ 20) (10 ^ 6) ltac:(lia)) as [Q _]. cbn zeta in Q.
  set (q := rne (z * 2 ^ 20) (10 ^ 6)) in *.
  assert (0 <= q <= 2 ^ 24) as Rq. { change (2 ^ 20) with 1048576 in Q. change (10 ^ 6) with 1000000 in *. change (2 ^ 24) with 16777216. lia. }
  assert (exists a b, in_format F32 a b /\ units a b = q * 2 ^ 1054) as (a & b & F & U).
  { destruct (Z.eq_dec q (2 ^ 24)) as [E|N].
    - exists (2 ^ 23), (-19). split; [split; cbn [prec emin emax]; lia|]. rewrite E. unfold units.
      change (-19 + 1074) with 1055. rewrite <- !Z.pow_add_r by lia. reflexivity.
    - exists q, (-20). split; [split; cbn [prec emin emax]; lia|]. reflexivity. }
  specialize (Mn a b F). rewrite !dist_sym, U in Mn.
  rewrite (pow2_split 1074 20 1054) in Mn |- * by lia. pose proof (pow2_pos 1054 ltac:(lia)) as P.
  revert Mn P. generalize (2 ^ 1054) (units m e * 10 ^ 6). intros V u Mn P.
  assert (Z.abs (q * V * 10 ^ 6 - z * (2 ^ 20 * V)) = V * Z.abs (z * 2 ^ 20 - q * 10 ^ 6)) as E.
  { rewrite <- (Z.abs_eq V) at 3 by lia. rewrite <- Z.abs_mul, <- Z.abs_opp. f_equal. ring. }
  rewrite E in Mn. change (2 ^ 20) with 1048576 in *. change (10 ^ 6) with 1000000 in *.
  assert (2 * (V * Z.abs (z * 1048576 - q * 1000000)) <= V * 1000000) by nia.
  split; lia.
Qed.

(** From 16 on the float is recovered. *)
Lemma large_float z m e : normal_form F32 m e -> 16 * 2 ^ 1074 <= units m e ->
  nearest_integer (units m e * 10 ^ 6) (2 ^ 1074) z -> nearest F32 z (10 ^ 6) m e.
Proof.
  intros NF L H.
  assert (X : forall t, units m e = t * 2 ^ 1074 -> nearest F32 z (10 ^ 6) m e).
  { intros t E. apply nearest_exact; auto; [lia|]. rewrite E in H |- *.
    replace (t * 2 ^ 1074 * 10 ^ 6) with (t * 10 ^ 6 * 2 ^ 1074) in H |- * by ring.
    apply nearest_integer_exact in H; [|apply pow2_pos; lia]. now rewrite H. }
  pose proof NF as [[M E] N]. cbn [prec emin emax] in M, E, N. change (24 - 1) with 23 in N.
  assert (Ee : -19 <= e).
  { destruct (Z.le_gt_cases (-19) e) as [|G]; auto. exfalso. unfold units in L.
    assert (2 ^ (e + 1074) <= 2 ^ 1054) by (apply Z.pow_le_mono_r; lia).
    assert (0 < 2 ^ (e + 1074)) by (apply pow2_pos; lia).
    rewrite (pow2_split 1074 20 1054) in L by lia. change (2 ^ 20) with 1048576 in L. change (2 ^ 24) with 16777216 in M.
    revert H0 H1 L. generalize (2 ^ (e + 1074)) (2 ^ 1054). intros a c. nia. }
  destruct N as [N|N]; [|lia].
  destruct (Z.le_gt_cases 0 e) as [G|G].
  { apply (X (m * 2 ^ e)). unfold units. rewrite Z.pow_add_r by lia. ring. }
  destruct (Z.eq_dec m (2 ^ 23)) as [Q|Q].
  { apply (X (2 ^ (23 + e))). unfold units. rewrite Q, <- !Z.pow_add_r by lia. f_equal. lia. }
  assert (W : forall m' e', in_format F32 m' e' -> units m' e' <> units m e -> dist z (10 ^ 6) m e < dist z (10 ^ 6) m' e').
  { intros m' e' F' Ne.
    assert (Gap : 2 ^ (e + 1074) <= Z.abs (units m' e' - units m e)).
    { pose proof (pow2_pos (e + 1074) ltac:(lia)) as P. pose proof F' as [M' E']. cbn [prec emin emax] in M', E'.
      unfold units in *. destruct (Z.le_gt_cases e e') as [A|A].
      - rewrite (pow2_split (e' + 1074) (e' - e) (e + 1074)) in * by lia. rewrite Z.mul_assoc in *.
        revert Ne P. generalize (m' * 2 ^ (e' - e)) (2 ^ (e + 1074)). intros a c Ne P.
        rewrite <- Z.mul_sub_distr_r, Z.abs_mul, (Z.abs_eq c) by lia.
        assert (a <> m) by (intros ->; auto). assert (1 <= Z.abs (a - m)) by lia. nia.
      - assert (2 * 2 ^ (e' + 1074) <= 2 ^ (e + 1074)).
        { change 2 with (2 ^ 1) at 1. rewrite <- Z.pow_add_r by lia. apply Z.pow_le_mono_r; lia. }
        pose proof (pow2_pos (e' + 1074) ltac:(lia)) as P'. change (2 ^ 24) with 16777216 in *. change (2 ^ 23) with 8388608 in *.
        revert P P' H0. generalize (2 ^ (e + 1074)) (2 ^ (e' + 1074)). clear - M M' N Q. intros c c' P P' H0.
        assert (m' * c' <= 8388608 * c) by nia. assert (8388609 * c <= m * c) by nia. lia. }
    assert (2 ^ 1055 <= 2 ^ (e + 1074)) by (apply Z.pow_le_mono_r; lia).
    rewrite !dist_sym. destruct H as [H _]. rewrite (pow2_split 1074 19 1055) in * by lia.
    pose proof (pow2_pos 1055 ltac:(lia)) as P. change (2 ^ 19) with 524288 in *. change (10 ^ 6) with 1000000 in *.
    revert Gap H H0 P. generalize (2 ^ (e + 1074)) (2 ^ 1055) (units m e) (units m' e'). clear. intros a V u u' Gap H H0 P.
    lia. }
  split; auto. split.
  - intros m' e' F'. destruct (Z.eq_dec (units m' e') (units m e)) as [Eq|Ne].
    + unfold dist. rewrite Eq. lia.
    + apply Z.lt_le_incl. auto.
  - intros m' e' F' Eq Ne. specialize (W m' e' F' Ne). lia.
Qed.

(** A float32 read from a six-digit decimal is recovered. *)
Lemma reread_float z m e z' : 0 <= z -> nearest F32 z (10 ^ 6) m e ->
  nearest_integer (units m e * 10 ^ 6) (2 ^ 1074) z' -> nearest F32 z' (10 ^ 6) m e.
Proof.
  intros R N H. destruct (Z.lt_ge_cases z (16 * 10 ^ 6)) as [L|L].
  - pose proof (small_decimal z m e ltac:(lia) N) as S.
    now rewrite (nearest_integer_fun _ _ _ _ (pow2_pos 1074 ltac:(lia)) H S).
  - apply large_float; auto; [apply N|].
    assert (units (2 ^ 23) (-19) = 16 * 2 ^ 1074) as U.
    { unfold units. change 16 with (2 ^ 4). rewrite <- !Z.pow_add_r by lia. reflexivity. }
    rewrite <- U. apply (nearest_ge F32 z (10 ^ 6)); auto; [lia|split; cbn [prec emin emax]; lia|].
    rewrite U. pose proof (pow2_pos 1074 ltac:(lia)) as P. revert P. generalize (2 ^ 1074). intros c P.
    change (10 ^ 6) with 1000000 in *. nia.
Qed.

(** A float64 read from a decimal beyond float32 is an integer beyond float32. *)
Lemma reread_big z m e : overflows F32 z (10 ^ 6) -> nearest F64 z (10 ^ 6) m e ->
  exists t, units m e = t * 2 ^ 1074 /\ overflows F32 (t * 10 ^ 6) (10 ^ 6).
Proof.
  intros O N. pose proof N as [[[M E] _] _]. cbn [prec emin emax] in M, E.
  assert (U : units (2 * 2 ^ 24 - 1) 103 <= units m e).
  { apply (nearest_ge F64 z (10 ^ 6)); auto; [lia|split; cbn [prec emin emax]; lia|].
    unfold overflows in O. cbn [prec emax] in O. unfold units. rewrite (Z.pow_add_r 2 103 1074) by lia.
    rewrite (pow2_split 104 1 103) in O by lia. pose proof (pow2_pos 1074 ltac:(lia)) as P.
    revert O P. generalize (2 ^ 103) (2 ^ 1074). intros a c O P. change (2 ^ 1) with 2 in O. change (2 ^ 24) with 16777216 in *.
    change (10 ^ 6) with 1000000 in *. assert (33554431 * a * 1000000 <= z) by lia. nia. }
  assert (0 <= e) as Ee.
  { destruct (Z.le_gt_cases 0 e) as [|G]; auto. exfalso. unfold units in U.
    assert (2 ^ (e + 1074) <= 2 ^ 1074) by (apply Z.pow_le_mono_r; lia).
    assert (0 < 2 ^ (e + 1074)) by (apply pow2_pos; lia).
    assert (2 ^ 53 * 2 ^ 1074 <= 2 ^ (103 + 1074)). { rewrite <- Z.pow_add_r by lia. apply Z.pow_le_mono_r; lia. }
    change (2 ^ 24) with 16777216 in U. change (2 ^ 53) with 9007199254740992 in *.
    revert U H H0 H1. generalize (2 ^ (e + 1074)) (2 ^ 1074) (2 ^ (103 + 1074)). intros a c g. nia. }
  exists (m * 2 ^ e). assert (units m e = m * 2 ^ e * 2 ^ 1074) as Eu by (unfold units; rewrite Z.pow_add_r by lia; ring).
  split; auto. rewrite Eu in U. unfold units in U. rewrite (Z.pow_add_r 2 103 1074), Z.mul_assoc in U by lia.
  apply Z.mul_le_mono_pos_r in U; [|apply pow2_pos; lia].
  unfold overflows. cbn [prec emax]. rewrite (pow2_split 104 1 103) by lia. change (2 ^ 1) with 2.
  revert U. generalize (m * 2 ^ e) (2 ^ 103). intros a c U. change (10 ^ 6) with 1000000. change (2 ^ 24) with 16777216 in *. lia.
Qed.
