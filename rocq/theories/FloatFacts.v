(** * Correct rounding *)
From Coq Require Import ZArith Bool Lia Znumtheory.
From Verif Require Import GoFloat SpecFloat.
Local Open Scope Z_scope.

Lemma prec_eq k : f_prec k = prec k. Proof. now destruct k. Qed.
Lemma emin_eq k : f_emin k = emin k. Proof. now destruct k. Qed.
Lemma emax_eq k : f_emax k = emax k. Proof. now destruct k. Qed.
Lemma emin_ge k : -1074 <= emin k. Proof. destruct k; cbn; lia. Qed.
Lemma emin_emax k : emin k < emax k. Proof. destruct k; cbn; lia. Qed.
Lemma prec_pos k : 2 <= prec k. Proof. destruct k; cbn; lia. Qed.

Lemma pow2_pos a : 0 <= a -> 0 < 2 ^ a.
Proof. intros. apply Z.pow_pos_nonneg; lia. Qed.

Lemma pow2_split a b c : a = b + c -> 0 <= b -> 0 <= c -> 2 ^ a = 2 ^ b * 2 ^ c.
Proof. intros -> B C. now apply Z.pow_add_r. Qed.

(** ** Nearest integer *)
Lemma rne_spec n d : 0 < d ->
  let q := rne n d in
  2 * Z.abs (n - q * d) <= d
  /\ (2 * Z.abs (n - q * d) = d -> Z.even q = true).
Proof.
  intros D. unfold rne. pose proof (Z.div_mod n d ltac:(lia)) as E.
  pose proof (Z.mod_pos_bound n d D) as B. remember (n / d) as q. remember (n mod d) as r.
  destruct (Z.ltb_spec (2 * r) d); [|destruct (Z.ltb_spec d (2 * r))].
  - cbn zeta. replace (n - q * d) with r by nia. rewrite Z.abs_eq by lia. lia.
  - cbn zeta. replace (n - (q + 1) * d) with (r - d) by nia. rewrite Z.abs_neq by lia. lia.
  - destruct (Z.even q) eqn:Ev; cbn zeta.
    + replace (n - q * d) with r by nia. rewrite Z.abs_eq by lia. split; [lia|auto].
    + replace (n - (q + 1) * d) with (r - d) by nia. rewrite Z.abs_neq by lia. split; [lia|].
      intros _. rewrite Z.add_1_r, Z.even_succ, <- Z.negb_even, Ev. reflexivity.
Qed.

Lemma rne_nearest n d j : 0 < d -> Z.abs (n - rne n d * d) <= Z.abs (n - j * d).
Proof.
  intros D. destruct (rne_spec n d D) as [H _]. remember (rne n d) as q.
  destruct (Z.eq_dec j q) as [->|N]; [lia|].
  assert (d <= Z.abs (q * d - j * d)).
  { replace (q * d - j * d) with ((q - j) * d) by ring. rewrite Z.abs_mul, (Z.abs_eq d) by lia.
    assert (1 <= Z.abs (q - j)) by lia. nia. }
  lia.
Qed.

Lemma rne_tie n d j : 0 < d -> j <> rne n d -> Z.abs (n - rne n d * d) = Z.abs (n - j * d) ->
  Z.even (rne n d) = true.
Proof.
  intros D N E. destruct (rne_spec n d D) as [H T]. remember (rne n d) as q.
  apply T.
  assert (d <= Z.abs (q * d - j * d)).
  { replace (q * d - j * d) with ((q - j) * d) by ring. rewrite Z.abs_mul, (Z.abs_eq d) by lia.
    assert (1 <= Z.abs (q - j)) by lia. nia. }
  lia.
Qed.

Lemma rne_scale c n d : 0 < c -> 0 < d -> rne (n * c) (d * c) = rne n d.
Proof.
  intros C D. unfold rne. rewrite Z.div_mul_cancel_r by lia. rewrite Zmult_mod_distr_r.
  replace (2 * (n mod d * c)) with (2 * (n mod d) * c) by ring.
  destruct (Z.ltb_spec (2 * (n mod d) * c) (d * c)), (Z.ltb_spec (2 * (n mod d)) d); try nia; auto.
  destruct (Z.ltb_spec (d * c) (2 * (n mod d) * c)), (Z.ltb_spec d (2 * (n mod d))); try nia; auto.
Qed.

Lemma rne_nonneg n d : 0 <= n -> 0 < d -> 0 <= rne n d.
Proof.
  intros N D. unfold rne. pose proof (Z.div_pos n d N D).
  destruct (2 * (n mod d) <? d), (d <? 2 * (n mod d)), (Z.even (n / d)); lia.
Qed.

(** The scaled quotient, in units of 2^-1074. *)
Lemma scale_rne n d e : 0 < d -> -1074 <= e ->
  (let '(a, b) := scale n d e in rne a b) = rne (n * 2 ^ 1074) (d * 2 ^ (e + 1074)).
Proof.
  intros D E. unfold scale. destruct (Z.leb_spec 0 e).
  - rewrite (pow2_split (e + 1074) e 1074) by lia. rewrite Z.mul_assoc, rne_scale; auto.
    + apply pow2_pos; lia.
    + pose proof (pow2_pos e). nia.
  - rewrite (pow2_split 1074 (- e) (e + 1074)) by lia. rewrite Z.mul_assoc, rne_scale; auto.
    apply pow2_pos; lia.
Qed.

(** ** Binary logarithm of a quotient *)
Lemma scale_le n d k S : 0 < d -> 0 <= S -> 0 <= k + S ->
  (let '(a, b) := scale n d k in (b <=? a) = true) <-> d * 2 ^ (k + S) <= n * 2 ^ S.
Proof.
  intros D HS H. unfold scale. destruct (Z.leb_spec 0 k); rewrite Z.leb_le.
  - rewrite (pow2_split (k + S) k S) by lia. pose proof (pow2_pos S HS). nia.
  - rewrite (pow2_split S (- k) (k + S)) by lia. pose proof (pow2_pos (k + S) H). nia.
Qed.

Lemma ilog2_spec n d S : 0 < n -> 0 < d -> 0 <= S ->
  (0 <= ilog2 n d + S -> d * 2 ^ (ilog2 n d + S) <= n * 2 ^ S)
  /\ (0 <= ilog2 n d + 1 + S -> n * 2 ^ S < d * 2 ^ (ilog2 n d + 1 + S)).
Proof.
  intros N D HS. unfold ilog2.
  pose proof (Z.log2_spec n N) as Ln. pose proof (Z.log2_spec d D) as Ld.
  pose proof (Z.log2_nonneg n) as Pn. pose proof (Z.log2_nonneg d) as Pd.
  remember (Z.log2 n) as ln. remember (Z.log2 d) as ld. clear Heqln Heqld.
  assert (Hi : forall S', 0 <= S' -> 0 <= ln - ld + 1 + S' -> n * 2 ^ S' < d * 2 ^ (ln - ld + 1 + S')).
  { intros S' H1 H2. 
    assert (n * 2 ^ S' < 2 ^ (ln + 1 + S')).
    { rewrite (pow2_split (ln + 1 + S') (Z.succ ln) S') by lia. pose proof (pow2_pos S' H1). nia. }
    assert (2 ^ (ln + 1 + S') <= d * 2 ^ (ln - ld + 1 + S')).
    { rewrite (pow2_split (ln + 1 + S') ld (ln - ld + 1 + S')) by lia.
      pose proof (pow2_pos (ln - ld + 1 + S') H2). nia. }
    lia. }
  assert (Lo : forall S', 0 <= S' -> 0 <= ln - ld - 1 + S' -> d * 2 ^ (ln - ld - 1 + S') < n * 2 ^ S').
  { intros S' H1 H2.
    assert (d * 2 ^ (ln - ld - 1 + S') < 2 ^ (ln + S')).
    { rewrite (pow2_split (ln + S') (Z.succ ld) (ln - ld - 1 + S')) by lia.
      pose proof (pow2_pos (ln - ld - 1 + S') H2). nia. }
    assert (2 ^ (ln + S') <= n * 2 ^ S').
    { rewrite (pow2_split (ln + S') ln S') by lia. pose proof (pow2_pos S' H1). nia. }
    lia. }
  set (k := ln - ld) in *.
  destruct (scale n d k) as [a b] eqn:Sc.
  (* the test, at any admissible scale *)
  assert (Tst : forall S', 0 <= S' -> 0 <= k + S' -> ((b <=? a) = true <-> d * 2 ^ (k + S') <= n * 2 ^ S')).
  { intros S' H1 H2. pose proof (scale_le n d k S' D H1 H2) as H. now rewrite Sc in H. }
  destruct (b <=? a) eqn:Tb.
  - split; intros H.
    + now apply Tst.
    + apply Hi; auto.
  - split; intros H.
    + replace (k - 1 + S) with (k - 1 + S) by ring. apply Z.lt_le_incl. apply Lo; auto.
    + replace (k - 1 + 1 + S) with (k + S) in * by ring.
      destruct (Z.lt_ge_cases (n * 2 ^ S) (d * 2 ^ (k + S))); auto.
      assert (false = true) by (apply (Tst S); auto; lia). discriminate.
Qed.

(** ** Normal forms are unique *)
Lemma units_below k m e m' e' :
  in_format k m e -> normal_form k m' e' -> e < e' -> units m e < units m' e'.
Proof.
  intros [M E] [[M' E'] N] L. pose proof (emin_ge k). pose proof (prec_pos k).
  destruct N as [N|N]; [|lia]. unfold units.
  assert (2 ^ prec k * 2 ^ (e + 1074) <= 2 ^ (prec k - 1) * 2 ^ (e' + 1074)).
  { rewrite <- !Z.pow_add_r by lia. apply Z.pow_le_mono_r; lia. }
  pose proof (pow2_pos (e + 1074) ltac:(lia)). pose proof (pow2_pos (e' + 1074) ltac:(lia)). nia.
Qed.

Lemma normal_unique k m e m' e' :
  normal_form k m e -> normal_form k m' e' -> units m e = units m' e' -> m = m' /\ e = e'.
Proof.
  intros N N' U. destruct (Z.lt_total e e') as [L|[->|L]].
  - pose proof (units_below k m e m' e' (proj1 N) N' L). lia.
  - split; auto. unfold units in U. destruct N as [[_ E] _]. pose proof (emin_ge k).
    pose proof (pow2_pos (e' + 1074) ltac:(lia)). nia.
  - pose proof (units_below k m' e' m e (proj1 N') N L). lia.
Qed.

(** ** Correctness of rounding *)

Lemma dist_scaled n d m e e0 : e0 <= e -> -1074 <= e0 ->
  dist n d m e = Z.abs (n * 2 ^ 1074 - (m * 2 ^ (e - e0)) * (d * 2 ^ (e0 + 1074))).
Proof.
  intros L H. unfold dist, units. rewrite (pow2_split (e + 1074) (e - e0) (e0 + 1074)) by lia.
  f_equal. ring.
Qed.

Lemma ov_up A d E U G n : 0 <= A -> 0 < d -> E * U <= G -> A * (d * G) <= 2 * (n * U) -> A * E * d * U <= 2 * n * U.
Proof.
  intros HA Hd H1 H2. assert (A * d * (E * U) <= A * d * G) by (apply Z.mul_le_mono_nonneg_l; nia). nia.
Qed.

Lemma ov_no P d E U G n : 1 <= P -> 0 < d -> 0 < U -> 0 < E ->
  (2 * P - 1) * E * d <= 2 * n -> n * U < P * (d * G) -> 2 * G <= E * U -> False.
Proof.
  intros HP Hd HU HE H1 H2 H3.
  assert (A1 : (2 * P - 1) * E * d * U <= 2 * n * U) by (apply Z.mul_le_mono_nonneg_r; lia).
  assert (A2 : P * d * (2 * G) <= P * d * (E * U)) by (apply Z.mul_le_mono_nonneg_l; nia).
  assert (A3 : 0 <= (P - 1) * (d * (E * U))).
  { apply Z.mul_nonneg_nonneg; [lia|]. apply Z.mul_nonneg_nonneg; [lia|]. apply Z.mul_nonneg_nonneg; lia. }
  assert (A4 : (2 * P - 1) * E * d * U = P * d * (E * U) + (P - 1) * (d * (E * U))) by ring.
  assert (A5 : 2 * (P * (d * G)) = P * d * (2 * G)) by ring.
  assert (A6 : 2 * n * U = 2 * (n * U)) by ring. lia.
Qed.

Lemma ov_big Q d E U G n : 1 <= Q -> 0 < d -> 0 < U -> 0 < E ->
  Q * (d * G) <= n * U -> 2 * (E * U) <= G -> (2 * (2 * Q) - 1) * E * d * U <= 2 * n * U.
Proof.
  intros HQ Hd HU HE H1 H2.
  assert (A2 : Q * d * (2 * (E * U)) <= Q * d * G) by (apply Z.mul_le_mono_nonneg_l; nia).
  assert (A3 : 0 <= E * d * U) by (apply Z.mul_nonneg_nonneg; [|lia]; apply Z.mul_nonneg_nonneg; lia).
  assert (A4 : (2 * (2 * Q) - 1) * E * d * U = 2 * (Q * d * (2 * (E * U))) - E * d * U) by ring.
  assert (A6 : 2 * n * U = 2 * (n * U)) by ring. assert (A7 : Q * (d * G) = Q * d * G) by ring. lia.
Qed.

Lemma tie_q P q D N : 0 < D -> q < P -> (2 * P - 1) * D <= 2 * N -> 2 * N - 2 * q * D <= D ->
  q = P - 1 /\ 2 * N - 2 * q * D = D.
Proof. intros. assert (q = P - 1) by nia. subst. split; lia. Qed.

Theorem round_pos_correct k n d :
  0 <= n -> 0 < d ->
  match round_pos k n d with
  | Some (m, e) => ~ overflows k n d /\ nearest k n d m e
  | None => overflows k n d
  end.
Proof.
  intros N D. unfold round_pos. rewrite prec_eq, emin_eq, emax_eq.
  pose proof (emin_ge k) as EG. pose proof (emin_emax k) as EE. pose proof (prec_pos k) as PP.
  pose proof (pow2_pos (prec k) ltac:(lia)) as P2.
  assert (P2s : 2 ^ prec k = 2 * 2 ^ (prec k - 1)).
  { rewrite (pow2_split (prec k) 1 (prec k - 1)) by lia. reflexivity. }
  pose proof (pow2_pos (prec k - 1) ltac:(lia)) as P21.
  destruct (Z.eqb_spec n 0) as [->|Nz].
  - split.
    + unfold overflows. pose proof (pow2_pos (emax k)). destruct k; cbn [prec emax] in *; nia.
    + repeat split; try lia; auto.
      * intros m' e' _. unfold dist, units. rewrite !Z.mul_0_l. cbn. lia.
  - assert (Np : 0 < n) by lia.
    set (e := Z.max (emin k) (ilog2 n d - prec k + 1)).
    pose proof (scale_rne n d e D ltac:(lia)) as Sc.
    destruct (scale n d e) as [a b]. cbn zeta. rewrite Sc. clear Sc a b.
    destruct (ilog2_spec n d 1074 Np D ltac:(lia)) as [Lo Hi].
    set (NN := n * 2 ^ 1074) in *. set (DD := d * 2 ^ (e + 1074)) in *.
    pose proof (pow2_pos (e + 1074) ltac:(lia)) as Pe.
    assert (DDp : 0 < DD) by (unfold DD; nia).
    assert (NNp : 0 < NN) by (unfold NN; pose proof (pow2_pos 1074); nia).
    assert (Up : NN < 2 ^ prec k * DD).
    { unfold DD. destruct (Z.le_gt_cases 0 (ilog2 n d + 1 + 1074)) as [G|G].
      - apply (Z.lt_le_trans _ _ _ (Hi G)).
        replace (2 ^ prec k * (d * 2 ^ (e + 1074))) with (d * (2 ^ prec k * 2 ^ (e + 1074))) by ring.
        rewrite <- Z.pow_add_r by lia. apply Z.mul_le_mono_nonneg_l; [lia|]. apply Z.pow_le_mono_r; lia.
      - destruct (ilog2_spec n d (- (ilog2 n d + 1)) Np D ltac:(lia)) as [_ Hi'].
        specialize (Hi' ltac:(lia)). rewrite Z.add_opp_diag_r in Hi'. change (2 ^ 0) with 1 in Hi'.
        assert (NN < d).
        { unfold NN. apply (Z.le_lt_trans _ (n * 2 ^ (- (ilog2 n d + 1)))); [|lia].
          apply Z.mul_le_mono_nonneg_l; [lia|]. apply Z.pow_le_mono_r; lia. }
        nia. }
    assert (Lw : emin k < e -> 2 ^ (prec k - 1) * DD <= NN).
    { intros G. assert (ilog2 n d = e + prec k - 1) as EL by lia.
      unfold DD. rewrite EL in Lo. specialize (Lo ltac:(lia)).
      replace (2 ^ (prec k - 1) * (d * 2 ^ (e + 1074))) with (d * (2 ^ (prec k - 1) * 2 ^ (e + 1074))) by ring.
      rewrite <- Z.pow_add_r by lia. replace (prec k - 1 + (e + 1074)) with (e + prec k - 1 + 1074) by ring.
      exact Lo. }
    set (q := rne NN DD).
    destruct (rne_spec NN DD DDp) as [Rb Rt]. fold q in Rb, Rt. cbn zeta in Rb, Rt.
    assert (Q0 : 0 <= q) by (apply rne_nonneg; lia).
    assert (Qhi : q <= 2 ^ prec k).
    { destruct (Z.le_gt_cases q (2 ^ prec k)) as [|G]; auto. exfalso.
      assert (2 ^ prec k * DD + DD <= q * DD) by nia. lia. }
    assert (Qlo : emin k < e -> 2 ^ (prec k - 1) <= q).
    { intros G. specialize (Lw G). destruct (Z.le_gt_cases (2 ^ (prec k - 1)) q) as [|G']; auto. exfalso.
      assert (q * DD + DD <= 2 ^ (prec k - 1) * DD) by nia. lia. }
    (* distance of any number of the format *)
    assert (Near : forall m' e', in_format k m' e' ->
               Z.abs (NN - q * DD) <= dist n d m' e'
               /\ (Z.abs (NN - q * DD) = dist n d m' e' -> units m' e' <> q * 2 ^ (e + 1074) -> Z.even q = true)).
    { intros m' e' [M' E']. destruct (Z.le_gt_cases e e') as [G|G].
      - rewrite (dist_scaled n d m' e' e) by lia. fold NN DD. split.
        + apply rne_nearest; auto.
        + intros Eq Ne. apply (rne_tie NN DD (m' * 2 ^ (e' - e))); auto. fold q. intros Ej. apply Ne.
          rewrite <- Ej. unfold units. rewrite (pow2_split (e' + 1074) (e' - e) (e + 1074)) by lia. ring.
      - assert (Ge : emin k < e) by lia. specialize (Lw Ge).
        assert (Hlt : units m' e' * d < 2 ^ (prec k - 1) * DD).
        { unfold units, DD.
          assert (2 ^ prec k * 2 ^ (e' + 1074) <= 2 ^ (prec k - 1) * 2 ^ (e + 1074)).
          { rewrite <- !Z.pow_add_r by lia. apply Z.pow_le_mono_r; lia. }
          pose proof (pow2_pos (e' + 1074) ltac:(lia)).
          assert (m' * 2 ^ (e' + 1074) < 2 ^ prec k * 2 ^ (e' + 1074)) by nia.
          replace (2 ^ (prec k - 1) * (d * 2 ^ (e + 1074))) with (2 ^ (prec k - 1) * 2 ^ (e + 1074) * d) by ring.
          apply Z.mul_lt_mono_pos_r; lia. }
        assert (Hd : dist n d m' e' = NN - units m' e' * d).
        { unfold dist. fold NN. rewrite Z.abs_eq; lia. }
        pose proof (rne_nearest NN DD (2 ^ (prec k - 1)) DDp) as Hn. fold q in Hn.
        rewrite (Z.abs_eq (NN - 2 ^ (prec k - 1) * DD)) in Hn by lia.
        rewrite Hd. split; [lia|]. intros Eq. lia. }
    assert (Eb : emin k <= e) by lia.
    destruct (Z.eqb_spec q (2 ^ prec k)) as [Qe|Qe].
    + (* rounded up to a power of two *)
      assert (Un : units (2 ^ (prec k - 1)) (e + 1) = q * 2 ^ (e + 1074)).
      { unfold units. rewrite Qe, P2s. rewrite (pow2_split (e + 1 + 1074) 1 (e + 1074)) by lia. change (2 ^ 1) with 2. ring. }
      assert (Dst : dist n d (2 ^ (prec k - 1)) (e + 1) = Z.abs (NN - q * DD)).
      { unfold dist. rewrite Un. fold NN. unfold DD. f_equal. ring. }
      pose proof (pow2_pos 1074 ltac:(lia)) as PU.
      pose proof (pow2_pos (emax k) ltac:(destruct k; cbn; lia)) as Pem.
      assert (EX : 0 <= emax k) by (destruct k; cbn; lia).
      destruct (Z.ltb_spec (emax k) (e + 1)) as [O|O].
      * (* overflow *)
        unfold overflows. apply (Z.mul_le_mono_pos_r _ _ (2 ^ 1074)); [exact PU|].
        apply (ov_up _ d _ _ (2 ^ (e + 1074)) n); [lia|exact D| |].
        -- rewrite <- Z.pow_add_r by lia. apply Z.pow_le_mono_r; lia.
        -- fold DD NN. rewrite <- Qe. clearbody NN DD q. lia.
      * split.
        -- unfold overflows. intros Ov.
           apply (ov_no (2 ^ prec k) d (2 ^ emax k) (2 ^ 1074) (2 ^ (e + 1074)) n);
             [lia|exact D|exact PU|exact Pem|exact Ov|exact Up|].
           change 2 with (2 ^ 1) at 1. rewrite <- !Z.pow_add_r by lia. apply Z.pow_le_mono_r; lia.
        -- repeat split; try lia.
           ++ intros m' e' F. rewrite Dst. now apply Near.
           ++ intros m' e' F _ _. rewrite Z.even_pow by lia. reflexivity.
    + assert (Ql : q < 2 ^ prec k) by lia.
      assert (Dst : dist n d q e = Z.abs (NN - q * DD)).
      { unfold dist, units. fold NN. unfold DD. f_equal. ring. }
      pose proof (pow2_pos 1074 ltac:(lia)) as PU.
      pose proof (pow2_pos (emax k) ltac:(destruct k; cbn; lia)) as Pem.
      assert (EX : 0 <= emax k) by (destruct k; cbn; lia).
      destruct (Z.ltb_spec (emax k) e) as [O|O].
      * unfold overflows. specialize (Lw ltac:(lia)).
        apply (Z.mul_le_mono_pos_r _ _ (2 ^ 1074)); [exact PU|]. rewrite P2s.
        apply (ov_big _ d _ _ (2 ^ (e + 1074)) n); [lia|exact D|exact PU|exact Pem|exact Lw|].
        change 2 with (2 ^ 1) at 1. rewrite <- !Z.pow_add_r by lia. apply Z.pow_le_mono_r; lia.
      * split.
        -- unfold overflows. intros Ov.
           destruct (Z.eq_dec e (emax k)) as [Ee|Ee].
           ++ assert (Ov' : (2 * 2 ^ prec k - 1) * DD <= 2 * NN).
              { assert (DDe : DD = d * (2 ^ emax k * 2 ^ 1074)).
                { unfold DD. rewrite Ee. f_equal. apply Z.pow_add_r; lia. }
                rewrite DDe. unfold NN.
                replace ((2 * 2 ^ prec k - 1) * (d * (2 ^ emax k * 2 ^ 1074)))
                  with ((2 * 2 ^ prec k - 1) * 2 ^ emax k * d * 2 ^ 1074) by ring.
                replace (2 * (n * 2 ^ 1074)) with (2 * n * 2 ^ 1074) by ring.
                apply Z.mul_le_mono_nonneg_r; [apply Z.lt_le_incl, PU | exact Ov]. }
              destruct (tie_q (2 ^ prec k) q DD NN DDp Ql Ov') as [Qm Tq].
              { clear -Rb. clearbody NN DD q. lia. }
              assert (Tie : 2 * Z.abs (NN - q * DD) = DD).
              { clear -Tq DDp. clearbody NN DD q. rewrite Z.abs_eq; lia. }
              specialize (Rt Tie). rewrite Qm, P2s in Rt.
              rewrite Z.sub_1_r, Z.even_pred, Z.odd_mul in Rt. discriminate.
           ++ apply (ov_no (2 ^ prec k) d (2 ^ emax k) (2 ^ 1074) (2 ^ (e + 1074)) n);
                [lia|exact D|exact PU|exact Pem|exact Ov|exact Up|].
              change 2 with (2 ^ 1) at 1. rewrite <- !Z.pow_add_r by lia. apply Z.pow_le_mono_r; lia.
        -- repeat split; try lia.
           ++ intros m' e' F. rewrite Dst. now apply Near.
           ++ intros m' e' F Eq Ne. rewrite Dst in Eq. apply (proj2 (Near m' e' F)); auto.
Qed.

(** ** The nearest number is unique *)
Lemma nearest_unique k n d m e m' e' :
  0 < d -> nearest k n d m e -> nearest k n d m' e' -> m = m' /\ e = e'.
Proof.
  intros D. 
  assert (W : forall m e m' e', nearest k n d m e -> nearest k n d m' e' -> ~ units m e < units m' e').
  { clear m e m' e'. intros m e m' e' (NF & Mn & Ev) (NF' & Mn' & Ev') L.
    pose proof (emin_ge k) as EG. pose proof (prec_pos k) as PP.
    assert (Deq : dist n d m e = dist n d m' e').
    { apply Z.le_antisymm; [apply Mn, NF' | apply Mn', NF]. }
    assert (Em : Z.even m = true) by (apply (Ev m' e'); [apply NF' | auto | lia]).
    assert (Em' : Z.even m' = true) by (apply (Ev' m e); [apply NF | auto | lia]).
    pose proof NF as [[M E] Nn]. pose proof NF' as [[M' E'] Nn'].
    assert (Hm1 : m + 1 < 2 ^ prec k).
    { assert (m + 1 <> 2 ^ prec k); [|lia]. intros Q.
      assert (Z.even (m + 1) = true) by (rewrite Q; apply Z.even_pow; lia).
      rewrite Z.add_1_r, Z.even_succ, <- Z.negb_even, Em in H. discriminate. }
    assert (NFs : normal_form k (m + 1) e) by (split; [split; lia|]; destruct Nn; [left; lia | now right]).
    pose proof (pow2_pos (e + 1074) ltac:(lia)) as Pe.
    (* nothing strictly between *)
    assert (S1 : units m' e' <= units (m + 1) e).
    { destruct (Z.le_gt_cases (units m' e') (units (m + 1) e)) as [|G]; auto. exfalso.
      pose proof (Mn (m + 1) e (proj1 NFs)) as H. rewrite <- Deq in *.
      unfold dist in *. set (A := n * 2 ^ 1074) in *.
      assert (units m e * d < units (m + 1) e * d) by (apply Z.mul_lt_mono_pos_r; auto; unfold units; nia).
      assert (units (m + 1) e * d < units m' e' * d) by (apply Z.mul_lt_mono_pos_r; auto).
      lia. }
    assert (S2 : units m' e' = units (m + 1) e).
    { destruct (Z.le_gt_cases e e') as [G|G].
      - unfold units in *. rewrite (pow2_split (e' + 1074) (e' - e) (e + 1074)) in * by lia.
        rewrite Z.mul_assoc in *. revert L S1. generalize (m' * 2 ^ (e' - e)) (2 ^ (e + 1074)) Pe.
        clear. intros j V P A B. assert (j = m + 1) by nia. now subst.
      - pose proof (units_below k m' e' m e (proj1 NF') NF G). lia. }
    destruct (normal_unique k _ _ _ _ NF' NFs S2) as [-> _].
    rewrite Z.add_1_r, Z.even_succ, <- Z.negb_even, Em in Em'. discriminate. }
  intros A B. apply (normal_unique k); [apply A | apply B |].
  pose proof (W _ _ _ _ A B). pose proof (W _ _ _ _ B A). lia.
Qed.

Definition round_opt (k : fkind) (neg : bool) (n d : Z) : option flt :=
  match round_pos k n d with Some (m, e) => Some (FFin neg m e) | None => None end.

Lemma rounds_to_round k neg n d : 0 <= n -> 0 < d -> rounds_to k neg n d (round_opt k neg n d).
Proof.
  intros N D. pose proof (round_pos_correct k n d N D) as H. unfold round_opt.
  destruct (round_pos k n d) as [[m e]|].
  - right. split; [apply H|]. exists m, e. split; auto. apply H.
  - now left.
Qed.

Lemma rounds_to_fun k neg n d f g : 0 < d -> rounds_to k neg n d f -> rounds_to k neg n d g -> f = g.
Proof.
  intros D [[O ->]|(O & m & e & -> & A)] [[O' ->]|(O' & m' & e' & -> & B)]; auto; try tauto.
  destruct (nearest_unique k n d m e m' e' D A B). congruence.
Qed.

(** Equal quotients round alike. *)
Lemma overflows_ratio k n d n' d' : 0 < d -> 0 < d' -> n * d' = n' * d -> overflows k n d -> overflows k n' d'.
Proof.
  unfold overflows. intros D D' E H. set (A := (2 * 2 ^ prec k - 1) * 2 ^ emax k) in *.
  apply (Z.mul_le_mono_pos_r _ _ d); auto. nia.
Qed.

Lemma dist_ratio n d n' d' m e : 0 < d -> 0 < d' -> n * d' = n' * d -> dist n d m e * d' = dist n' d' m e * d.
Proof.
  intros D D' E. unfold dist.
  rewrite <- (Z.abs_eq d') at 1 by lia. rewrite <- (Z.abs_eq d) at 2 by lia. rewrite <- !Z.abs_mul. f_equal.
  set (U := 2 ^ 1074). set (V := units m e). nia.
Qed.

Lemma nearest_ratio k n d n' d' m e : 0 < d -> 0 < d' -> n * d' = n' * d -> nearest k n d m e -> nearest k n' d' m e.
Proof.
  intros D D' E (NF & Mn & Ev). split; auto. split.
  - intros m' e' F. specialize (Mn m' e' F).
    pose proof (dist_ratio n d n' d' m e D D' E). pose proof (dist_ratio n d n' d' m' e' D D' E). nia.
  - intros m' e' F Q. apply (Ev m' e' F).
    pose proof (dist_ratio n d n' d' m e D D' E). pose proof (dist_ratio n d n' d' m' e' D D' E). nia.
Qed.

Lemma rounds_to_ratio k neg n d n' d' f :
  0 < d -> 0 < d' -> n * d' = n' * d -> rounds_to k neg n d f -> rounds_to k neg n' d' f.
Proof.
  intros D D' E [[O ->]|(O & m & e & -> & A)].
  - left. split; auto. exact (overflows_ratio k n d n' d' D D' E O).
  - right. split.
    + intros O'. apply O. exact (overflows_ratio k n' d' n d D' D (eq_sym E) O').
    + exists m, e. split; auto. exact (nearest_ratio k n d n' d' m e D D' E A).
Qed.
