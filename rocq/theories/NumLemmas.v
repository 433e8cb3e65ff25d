(** * Integers and their texts *)
From Coq Require Import Ascii String List NArith ZArith Bool Lia.
From Verif Require Import GoStr StrLemmas GoNum SpecNum.
Import ListNotations.
Local Open Scope Z_scope.

Lemma digit_val_spec c :
  match digit_val c with Some d => is_digit c /\ d = digit c | None => ~ is_digit c end.
Proof.
  unfold digit_val, is_digit, digit.
  destruct (Z.leb_spec 48 (Z.of_N (N_of_ascii c))), (Z.leb_spec (Z.of_N (N_of_ascii c)) 57); cbn; lia.
Qed.

Lemma digit_val_digit c : is_digit c -> digit_val c = Some (digit c).
Proof.
  intros H. pose proof (digit_val_spec c). destruct (digit_val c); [|tauto]. destruct H0; congruence.
Qed.

Lemma digit_val_ndigit c : ~ is_digit c -> digit_val c = None.
Proof.
  intros H. pose proof (digit_val_spec c). destruct (digit_val c); tauto.
Qed.

Lemma digits_acc_spec s : forall a,
  Forall is_digit s -> digits_acc a s = Some (a * 10 ^ Z.of_nat (length s) + decimal s).
Proof.
  induction s as [|c s IH]; intros a H; cbn [digits_acc decimal length].
  - f_equal. cbn. lia.
  - inversion H; subst. rewrite digit_val_digit by auto. rewrite IH by auto.
    f_equal. rewrite Nat2Z.inj_succ, Z.pow_succ_r by lia. ring.
Qed.

Lemma digits_acc_None s : forall a, ~ Forall is_digit s -> digits_acc a s = None.
Proof.
  induction s as [|c s IH]; intros a H; cbn [digits_acc].
  - exfalso. apply H. constructor.
  - pose proof (digit_val_spec c) as D. destruct (digit_val c); auto. apply IH.
    intros F. apply H. constructor; tauto.
Qed.

Lemma digits_acc_inv s a z : digits_acc a s = Some z ->
  Forall is_digit s /\ z = a * 10 ^ Z.of_nat (length s) + decimal s.
Proof.
  intros H. assert (F : Forall is_digit s).
  { destruct (Forall_dec is_digit) with (l := s) as [F|F]; auto.
    - intros c. pose proof (digit_val_spec c) as D. destruct (digit_val c); [left|right]; tauto.
    - rewrite digits_acc_None in H by auto. discriminate. }
  split; auto. rewrite digits_acc_spec in H by auto. congruence.
Qed.

Lemma digits_val_iff s z : digits_val s = Some z <-> numeral s z.
Proof.
  unfold digits_val, numeral. destruct s as [|c s].
  - split; [discriminate | tauto].
  - split.
    + intros H. apply digits_acc_inv in H as [F E]. split; [discriminate|]. split; auto; lia.
    + intros (_ & F & E). rewrite digits_acc_spec by auto. f_equal. lia.
Qed.

Lemma numeral_fun s a b : numeral s a -> numeral s b -> a = b.
Proof. intros (_ & _ & A) (_ & _ & B). congruence. Qed.

Lemma decimal_nonneg s : Forall is_digit s -> 0 <= decimal s.
Proof.
  induction 1 as [|c s [H _] F IH]; cbn [decimal]; [lia|].
  pose proof (Z.pow_nonneg 10 (Z.of_nat (length s))). nia.
Qed.

Lemma numeral_nonneg s z : numeral s z -> 0 <= z.
Proof. intros (_ & F & <-). now apply decimal_nonneg. Qed.

Lemma parse_uint_iff bits s z :
  parse_uint bits s = Some z <-> numeral s z /\ z <= 2 ^ bits - 1.
Proof.
  unfold parse_uint. destruct (digits_val s) as [v|] eqn:E.
  - apply digits_val_iff in E. destruct (Z.leb_spec v (2 ^ bits - 1)); split; intros H0.
    + inversion H0; subst. auto.
    + destruct H0 as [H1 _]. f_equal. eapply numeral_fun; eauto.
    + discriminate.
    + destruct H0 as [H1 H2]. pose proof (numeral_fun _ _ _ E H1). lia.
  - split; [discriminate|]. intros [H _]. apply digits_val_iff in H. congruence.
Qed.

Lemma is_digit_not_sign c : is_digit c -> c <> c_min /\ c <> c_plus.
Proof. unfold is_digit, digit. intros H. split; intros ->; destruct H as [H _]; vm_compute in H; now apply H. Qed.

Lemma parse_int_iff bits s z :
  1 <= bits ->
  parse_int bits s = Some z <->
  signed_numeral s z /\ (- 2 ^ (bits - 1) <= z <= 2 ^ (bits - 1) - 1).
Proof.
  intros Hb. unfold parse_int, signed_numeral.
  assert (P : (1 <= 2 ^ (bits - 1))) by (pose proof (Z.pow_pos_nonneg 2 (bits - 1)); lia).
  destruct s as [|c t].
  { cbn. split; [discriminate|]. intros [[H|[(t & H & _)|(t & H & _)]] _]; try discriminate.
    destruct H as [H _]. tauto. }
  destruct (Ascii.eqb_spec c c_min).
  { subst. cbn iota. destruct (digits_val t) as [v|] eqn:E.
    - apply digits_val_iff in E. pose proof (numeral_nonneg _ _ E).
      destruct (Z.leb_spec v (2 ^ (bits - 1))); split; intros H1.
      + inversion H1; subst. split; [|lia]. right; right. exists t. rewrite Z.opp_involutive. auto.
      + destruct H1 as [[(_ & F & _)|[(u & Eu & _)|(u & Eu & Hu)]] _].
        * inversion F; subst. destruct (is_digit_not_sign c_min); tauto.
        * discriminate.
        * inversion Eu; subst. pose proof (numeral_fun _ _ _ E Hu). f_equal. lia.
      + discriminate.
      + destruct H1 as [[(_ & F & _)|[(u & Eu & _)|(u & Eu & Hu)]] B].
        * inversion F; subst. destruct (is_digit_not_sign c_min); tauto.
        * discriminate.
        * inversion Eu; subst. pose proof (numeral_fun _ _ _ E Hu). lia.
    - split; [discriminate|]. intros [[(_ & F & _)|[(u & Eu & _)|(u & Eu & Hu)]] _].
      + inversion F; subst. destruct (is_digit_not_sign c_min); tauto.
      + discriminate.
      + inversion Eu; subst. apply digits_val_iff in Hu. congruence. }
  destruct (Ascii.eqb_spec c c_plus).
  { subst. destruct (digits_val t) as [v|] eqn:E.
    - apply digits_val_iff in E. pose proof (numeral_nonneg _ _ E).
      destruct (Z.leb_spec v (2 ^ (bits - 1) - 1)); split; intros H1.
      + inversion H1; subst. split; [|lia]. right; left. exists t. auto.
      + destruct H1 as [[(_ & F & _)|[(u & Eu & Hu)|(u & Eu & Hu)]] _].
        * inversion F; subst. destruct (is_digit_not_sign c_plus); tauto.
        * inversion Eu; subst. f_equal. eapply numeral_fun; eauto.
        * discriminate.
      + discriminate.
      + destruct H1 as [[(_ & F & _)|[(u & Eu & Hu)|(u & Eu & Hu)]] B].
        * inversion F; subst. destruct (is_digit_not_sign c_plus); tauto.
        * inversion Eu; subst. pose proof (numeral_fun _ _ _ E Hu). lia.
        * discriminate.
    - split; [discriminate|]. intros [[(_ & F & _)|[(u & Eu & Hu)|(u & Eu & Hu)]] _].
      + inversion F; subst. destruct (is_digit_not_sign c_plus); tauto.
      + inversion Eu; subst. apply digits_val_iff in Hu. congruence.
      + discriminate. }
  destruct (digits_val (c :: t)) as [v|] eqn:E.
  - apply digits_val_iff in E. pose proof (numeral_nonneg _ _ E).
    destruct (Z.leb_spec v (2 ^ (bits - 1) - 1)); split; intros H1.
    + inversion H1; subst. split; [|lia]. left. auto.
    + destruct H1 as [[H1|[(u & Eu & Hu)|(u & Eu & Hu)]] _].
      * f_equal. eapply numeral_fun; eauto.
      * inversion Eu; subst. tauto.
      * inversion Eu; subst. tauto.
    + discriminate.
    + destruct H1 as [[H1|[(u & Eu & Hu)|(u & Eu & Hu)]] B].
      * pose proof (numeral_fun _ _ _ E H1). lia.
      * inversion Eu; subst. tauto.
      * inversion Eu; subst. tauto.
  - split; [discriminate|]. intros [[H1|[(u & Eu & Hu)|(u & Eu & Hu)]] _].
    + apply digits_val_iff in H1. congruence.
    + inversion Eu; subst. tauto.
    + inversion Eu; subst. tauto.
Qed.

(** ** Formatting *)

Lemma digit_char_digit d : 0 <= d <= 9 -> digit (digit_char d) = d.
Proof.
  intros H. unfold digit, digit_char. rewrite N_ascii_embedding by lia. lia.
Qed.

Lemma digit_char_is d : 0 <= d <= 9 -> is_digit (digit_char d).
Proof. intros H. red. rewrite digit_char_digit; auto. Qed.

Lemma decimal_app a b : decimal (a ++ b) = decimal a * 10 ^ Z.of_nat (length b) + decimal b.
Proof.
  induction a as [|c a IH]; cbn [app decimal]; [lia|].
  rewrite IH, app_length, Nat2Z.inj_add, Z.pow_add_r by lia. ring.
Qed.

Lemma dec_fuel_spec f : forall z acc,
  0 <= z < 2 ^ Z.of_nat f -> (1 <= f)%nat ->
  exists ds, dec_fuel f z acc = ds ++ acc /\ numeral ds z /\ canonical ds.
Proof.
  induction f as [|f IH]; intros z acc Hz Hf; [lia|]. cbn [dec_fuel].
  pose proof (Z.mod_pos_bound z 10). pose proof (Z.div_mod z 10).
  destruct (Z.eqb_spec (z / 10) 0) as [E|E].
  - exists [digit_char (z mod 10)]. split; auto. split.
    + split; [discriminate|]. split; [repeat constructor; apply digit_char_is; lia|].
      cbn [decimal length]. rewrite digit_char_digit by lia. cbn. lia.
    + assert (Ez : z mod 10 = z) by lia. rewrite Ez.
      destruct (Z.eq_dec z 0) as [->|N]; [left; reflexivity|]. right.
      intros C. assert (D : digit (digit_char z) = 0) by (rewrite C; reflexivity).
      rewrite digit_char_digit in D by lia. lia.
  - assert (Hf2 : (1 <= f)%nat).
    { destruct f; [|lia]. assert (z / 10 = 0) by (apply Z.div_small; cbn in Hz; lia). lia. }
    destruct (IH (z / 10) (digit_char (z mod 10) :: acc)) as (ds & E2 & N & C); auto.
    { split; [apply Z.div_pos; lia|]. apply Z.div_lt_upper_bound; [lia|].
      rewrite Nat2Z.inj_succ, Z.pow_succ_r in Hz by lia. lia. }
    exists (ds ++ [digit_char (z mod 10)]). rewrite E2. split; [now rewrite <- app_assoc|].
    destruct N as (N1 & N2 & N3). split; [split; [|split]|].
    + destruct ds; discriminate.
    + apply Forall_app. split; auto. repeat constructor; apply digit_char_is; lia.
    + rewrite decimal_app, N3. cbn [decimal length]. rewrite digit_char_digit by lia. cbn. lia.
    + destruct C as [->|C].
      * cbn in N3. lia.
      * right. destruct ds; [tauto|]. exact C.
Qed.

Lemma format_uint_spec z : 0 <= z -> numeral (format_uint z) z /\ canonical (format_uint z).
Proof.
  intros H. unfold format_uint.
  destruct (dec_fuel_spec (S (Z.to_nat (Z.log2 z))) z []) as (ds & E & N & C).
  - split; auto. rewrite Nat2Z.inj_succ, Z2Nat.id by apply Z.log2_nonneg.
    destruct (Z.eq_dec z 0) as [->|]; [cbn; lia|]. apply Z.log2_spec. lia.
  - lia.
  - rewrite E, app_nil_r. auto.
Qed.

Lemma parse_uint_format z : 0 <= z -> z <= 2 ^ 64 - 1 -> parse_uint 64 (format_uint z) = Some z.
Proof. intros H1 H2. apply parse_uint_iff. split; auto. now apply format_uint_spec. Qed.

Lemma format_int_spec z : signed_numeral (format_int z) z.
Proof.
  unfold format_int. destruct (Z.ltb_spec z 0).
  - right; right. eexists. split; [reflexivity|]. apply format_uint_spec. lia.
  - left. now apply format_uint_spec.
Qed.

Lemma parse_int_format z : - 2 ^ 63 <= z <= 2 ^ 63 - 1 -> parse_int 64 (format_int z) = Some z.
Proof. intros H. apply parse_int_iff; [lia|]. split; auto. apply format_int_spec. Qed.

Lemma format_uint_digits z : 0 <= z -> Forall is_digit (format_uint z).
Proof. intros H. now destruct (format_uint_spec z H) as [(_ & F & _) _]. Qed.
