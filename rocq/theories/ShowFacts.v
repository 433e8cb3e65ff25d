(** * The text of a document exists and is unique *)
From Coq Require Import Ascii String List NArith ZArith Bool Lia.
From Verif Require Import GoStr StrLemmas GoNum NumLemmas GoFloat Heap Common ValueModel ArrayModel MapModel JsonModel
  SpecDict SpecWorld SpecNum SpecFloat FloatFacts SpecDoc SpecToken SpecRender RenderFacts.
Import ListNotations.
Local Open Scope Z_scope.

(** ** Numerals *)
Lemma digit_inj a b : digit a = digit b -> a = b.
Proof.
  unfold digit. intros H. assert (N_of_ascii a = N_of_ascii b) as E by lia.
  rewrite <- (ascii_N_embedding a), <- (ascii_N_embedding b). now rewrite E.
Qed.

Lemma decimal_lt s : Forall is_digit s -> decimal s < 10 ^ Z.of_nat (length s).
Proof.
  induction 1 as [|c s Hc Hs IH]; [cbn; lia|]. cbn [decimal length]. rewrite Nat2Z.inj_succ, Z.pow_succ_r by lia.
  unfold is_digit in Hc. nia.
Qed.

Lemma decimal_eq a : forall b, Forall is_digit a -> Forall is_digit b -> length a = length b ->
  decimal a = decimal b -> a = b.
Proof.
  induction a as [|x a IH]; intros [|y b] A B L E; cbn in L; try discriminate; auto.
  inversion A; inversion B; subst. cbn [decimal] in E. assert (L' : length a = length b) by congruence. rewrite L' in E.
  pose proof (decimal_lt a H2). pose proof (decimal_lt b H6). rewrite L' in *.
  pose proof (decimal_nonneg a H2). pose proof (decimal_nonneg b H6).
  unfold is_digit in *. set (P := 10 ^ Z.of_nat (length b)) in *.
  assert (digit x = digit y) by nia. f_equal; [now apply digit_inj|]. apply IH; auto. nia.
Qed.

Lemma canonical_ge i f : Forall is_digit (i ++ f) -> canonical i -> (2 <= length i)%nat ->
  10 ^ (Z.of_nat (length i + length f) - 1) <= decimal (i ++ f).
Proof.
  intros D [->|C] L; [cbn in L; lia|]. destruct i as [|c i]; [contradiction|]. cbn [app] in *.
  inversion D as [|? ? Dc D']; subst. cbn [decimal]. pose proof (decimal_nonneg _ D').
  assert (1 <= digit c).
  { unfold is_digit in Dc. destruct (Z.eq_dec (digit c) 0) as [E|]; [|lia]. exfalso. apply C. apply digit_inj. exact E. }
  rewrite app_length. replace (Z.of_nat (length (c :: i) + length f) - 1) with (Z.of_nat (length i + length f)) by (cbn [length]; lia).
  assert (0 < 10 ^ Z.of_nat (length i + length f)) by (apply Z.pow_pos_nonneg; lia). nia.
Qed.

Lemma canonical_len i f i' f' z : numeral (i ++ f) z -> numeral (i' ++ f') z -> canonical i -> canonical i' ->
  length f = length f' -> (length i' <= length i)%nat.
Proof.
  intros (_ & D & E) (_ & D' & E') C C' L. destruct (Nat.le_gt_cases (length i') (length i)) as [|G]; auto. exfalso.
  assert (1 <= length i)%nat. { destruct C as [->|C]; [cbn; lia|]. destruct i; [contradiction|cbn; lia]. }
  pose proof (canonical_ge i' f' D' C' ltac:(lia)) as A. pose proof (decimal_lt _ D) as B. rewrite app_length in B.
  assert (10 ^ Z.of_nat (length i + length f) <= 10 ^ (Z.of_nat (length i' + length f') - 1)) by (apply Z.pow_le_mono_r; lia).
  lia.
Qed.

Lemma numeral_canonical_eq i f i' f' z : numeral (i ++ f) z -> numeral (i' ++ f') z -> canonical i -> canonical i' ->
  length f = length f' -> i = i' /\ f = f'.
Proof.
  intros N N' C C' L. pose proof (canonical_len _ _ _ _ _ N N' C C' L).
  pose proof (canonical_len _ _ _ _ _ N' N C' C (eq_sym L)).
  destruct N as (_ & D & E), N' as (_ & D' & E').
  assert (Q : i ++ f = i' ++ f') by (apply decimal_eq; auto; [rewrite !app_length; lia | congruence]).
  assert (length i = length i') as K by lia. clear - Q K. revert i' K Q.
  induction i as [|c i IH]; intros [|c' i'] K Q; cbn in *; try discriminate; auto.
  injection K as K. injection Q as -> Q. destruct (IH i' K Q) as [-> ->]. auto.
Qed.

Lemma integer_text_fun z s t : integer_text z s -> integer_text z t -> s = t.
Proof.
  intros (u & -> & N & C) (v & -> & N' & C'). f_equal.
  rewrite <- (app_nil_r u) in N. rewrite <- (app_nil_r v) in N'.
  now destruct (numeral_canonical_eq _ _ _ _ _ N N' C C' eq_refl).
Qed.

Lemma nearest_integer_fun n d a b : 0 < d -> nearest_integer n d a -> nearest_integer n d b -> a = b.
Proof.
  intros D [A EA] [B EB]. destruct (Z.eq_dec a b) as [|N]; auto. exfalso.
  assert (Z.abs (a - b) = 1).
  { assert (Z.abs ((a - b) * d) <= d) by lia. rewrite Z.abs_mul, (Z.abs_eq d) in H by lia. nia. }
  assert (Z.abs (n - a * d) + Z.abs (n - b * d) >= d).
  { assert (Z.abs ((a - b) * d) = d) by (rewrite Z.abs_mul, (Z.abs_eq d) by lia; nia). lia. }
  assert (2 * Z.abs (n - a * d) = d) as TA by lia. assert (2 * Z.abs (n - b * d) = d) as TB by lia.
  specialize (EA TA). specialize (EB TB).
  assert (a = b + 1 \/ a = b - 1) as [-> | ->] by lia.
  - rewrite Z.even_add in EA. rewrite EB in EA. discriminate.
  - rewrite Z.even_sub in EA. rewrite EB in EA. discriminate.
Qed.

Lemma fixed_text_fun neg m e s t : fixed_text neg m e s -> fixed_text neg m e t -> s = t.
Proof.
  intros (i & f & z & -> & N & C & L & R) (i' & f' & z' & -> & N' & C' & L' & R').
  assert (z = z') as ->. { eapply nearest_integer_fun; eauto. apply Z.pow_pos_nonneg; lia. }
  destruct (numeral_canonical_eq _ _ _ _ _ N N' C C') as [-> ->]; [congruence|reflexivity].
Qed.

Lemma shows_fun d : forall s t, shows d s -> shows d t -> s = t.
Proof.
  induction d as [|x|y|l|l IH|l IH] using doc_ind'; intros s t A B.
  - inversion A; inversion B; subst; auto.
  - inversion A; subst; inversion B; subst; auto.
    + eapply integer_text_fun; eauto.
    + eapply fixed_text_fun; eauto.
  - inversion A; inversion B; subst; auto.
  - inversion A; inversion B; subst; auto.
  - inversion A as [| | | | | | | | | | |? ts HA|]; inversion B as [| | | | | | | | | | |? us HB|]; subst. do 3 f_equal.
    clear A B. revert us HB. induction HA as [|x y l ts Hx HA IHl]; intros us HB; inversion HB; subst; auto.
    inversion IH; subst. f_equal; eauto.
  - inversion A as [| | | | | | | | | | | |? ts HA]; inversion B as [| | | | | | | | | | | |? us HB]; subst. do 5 f_equal.
    clear A B. revert us HB. induction HA as [|x y l ts Hx HA IHl]; intros us HB; inversion HB; subst; auto.
    inversion IH; subst. f_equal; eauto.
Qed.

(** ** Existence *)
Lemma six_len z : length (six z) = 6%nat.
Proof. reflexivity. Qed.

Lemma six_digits z : Forall is_digit (six z).
Proof.
  unfold six. repeat (constructor; [apply digit_char_is; match goal with |- _ <= ?a mod 10 <= _ => pose proof (Z.mod_pos_bound a 10) end; lia|]).
  constructor.
Qed.

Lemma six_decimal z : 0 <= z < 1000000 -> decimal (six z) = z.
Proof.
  intros H. unfold six. cbn [decimal length].
  rewrite !digit_char_digit by (match goal with |- _ <= ?a mod 10 <= _ => pose proof (Z.mod_pos_bound a 10) end; lia).
  change (10 ^ Z.of_nat 5) with 100000. change (10 ^ Z.of_nat 4) with 10000. change (10 ^ Z.of_nat 3) with 1000.
  change (10 ^ Z.of_nat 2) with 100. change (10 ^ Z.of_nat 1) with 10. change (10 ^ Z.of_nat 0) with 1.
  Z.div_mod_to_equations. lia.
Qed.

Lemma micro_nearest m e : 0 <= m -> -1074 <= e -> nearest_integer (units m e * 10 ^ 6) (2 ^ 1074) (micro m e).
Proof.
  intros M E. unfold micro, units. destruct (Z.leb_spec 0 e) as [G|G].
  - assert (m * 2 ^ (e + 1074) * 10 ^ 6 = m * 2 ^ e * 1000000 * 2 ^ 1074) as ->.
    { rewrite Z.pow_add_r by lia. change (10 ^ 6) with 1000000. ring. }
    pose proof (pow2_pos 1074 ltac:(lia)) as P. generalize dependent (2 ^ 1074). intros P0 P.
    split; rewrite Z.sub_diag; cbn; lia.
  - rewrite <- (rne_scale (2 ^ (e + 1074)) (m * 1000000) (2 ^ (- e))) by (apply pow2_pos; lia).
    assert (2 ^ (- e) * 2 ^ (e + 1074) = 2 ^ 1074) as ->. { rewrite <- Z.pow_add_r by lia. f_equal. lia. }
    assert (m * 2 ^ (e + 1074) * 10 ^ 6 = m * 1000000 * 2 ^ (e + 1074)) as -> by ring.
    pose proof (pow2_pos 1074 ltac:(lia)) as P. generalize dependent (2 ^ 1074). intros P0 P.
    apply rne_spec. exact P.
Qed.

Lemma micro_nonneg m e : 0 <= m -> 0 <= micro m e.
Proof.
  intros M. unfold micro. destruct (Z.leb_spec 0 e) as [G|G].
  - pose proof (pow2_pos e ltac:(lia)). nia.
  - apply rne_nonneg; [lia | apply pow2_pos; lia].
Qed.

Lemma format_f_digits u : 0 <= u ->
  let i := format_uint (u / 1000000) in let f := six (u mod 1000000) in
  numeral (i ++ f) u /\ canonical i /\ length f = 6%nat.
Proof.
  intros U i f. destruct (format_uint_spec (u / 1000000)) as [(N1 & D & E) C]; [apply Z.div_pos; lia|].
  assert (0 <= u mod 1000000 < 1000000) by (apply Z.mod_pos_bound; lia). split; [|split; [exact C | reflexivity]].
  split; [|split].
  - intros Q. apply app_eq_nil in Q as [_ Q]. discriminate.
  - apply Forall_app. split; [exact D | apply six_digits].
  - unfold i, f. rewrite decimal_app, six_len, E, six_decimal by lia. change (10 ^ Z.of_nat 6) with 1000000.
    pose proof (Z.div_mod u 1000000). lia.
Qed.

Lemma fixed_text_format neg m e : 0 <= m -> -1074 <= e -> fixed_text neg m e (format_f (FFin neg m e)).
Proof.
  intros M E. cbn [format_f]. pose proof (micro_nonneg m e M) as U. destruct (format_f_digits _ U) as (N & C & L).
  exists (format_uint (micro m e / 1000000)), (six (micro m e mod 1000000)), (micro m e).
  repeat split; auto; try apply N. + apply micro_nearest; auto. + apply micro_nearest; auto.
Qed.

Lemma integer_text_format is64 k z : fits is64 k z -> integer_text z (int_text k z).
Proof.
  intros F. assert (int_text k z = sign (z <? 0) ++ format_uint (Z.abs z)) as ->.
  { destruct F as [[S H]|[S H]].
    - assert (int_text k z = format_int z) as ->.
      { unfold is_signed in S. intuition; subst; reflexivity. }
      unfold format_int. destruct (Z.ltb_spec z 0).
      + rewrite Z.abs_neq by lia. reflexivity.
      + now rewrite Z.abs_eq by lia.
    - assert (int_text k z = format_uint z) as ->.
      { unfold is_signed in S. destruct k; try reflexivity; exfalso; apply S; auto 6. }
      destruct (Z.ltb_spec z 0); [lia|]. now rewrite Z.abs_eq by lia. }
  exists (format_uint (Z.abs z)). destruct (format_uint_spec (Z.abs z)); [lia|]. auto.
Qed.

Lemma emin_range k m e : normal_form k m e -> 0 <= m /\ -1074 <= e.
Proof. intros [[M E] _]. pose proof (emin_ge k). lia. Qed.

Lemma shows_render is64 d : proper is64 d -> shows d (render d).
Proof.
  induction d as [|x|y|l|l IH|l IH] using doc_ind'; intros P; cbn [render].
  - constructor.
  - inversion P as [|? Q| | | |]; subst. destruct x as [t|[]|k z|k [neg m e|[]|]]; cbn [scalar_json].
    + rewrite <- quote_quoted. constructor.
    + apply sh_true.
    + apply sh_false.
    + apply sh_int. eapply integer_text_format. exact Q.
    + apply sh_flt. apply emin_range in Q as []. now apply fixed_text_format.
    + apply sh_ninf.
    + apply sh_pinf.
    + apply sh_nan.
  - constructor.
  - constructor.
  - inversion P as [| | | |? Q|]; subst. apply sh_arr. clear P. induction l as [|x l IHl]; constructor; inversion Q; inversion IH; subst; auto.
  - inversion P as [| | | | |? Q]; subst.
    assert (map (fun kd : str * doc => quote (fst kd) ++ [c_col] ++ render (snd kd)) l
      = map (fun kt => quote (fst kt) ++ [c_col] ++ snd kt) (combine (map fst l) (map (fun kd => render (snd kd)) l))) as ->.
    { clear. induction l as [|x l IHl]; [reflexivity|]. cbn [map combine fst snd]. now rewrite <- IHl. }
    apply sh_map. clear P. induction l as [|x l IHl]; constructor; inversion Q; inversion IH; subst; auto.
Qed.
