(** * Every document Parse returns is well typed *)
From Coq Require Import Ascii String List NArith ZArith Bool Lia.
From Verif Require Import GoStr GoNum GoFloat Heap Common ValueModel ArrayModel MapModel JsonModel ParserModel
  StrLemmas SpecDict DictLemmas SpecNum NumLemmas SpecWorld Inv World Reach SpecFloat FloatFacts SpecDoc RepFacts
  SpecText SpecToken TreeParser ParseWorld ParseRefine ParseTop TextRun TokenFacts SpecParse ParseFacts PosFacts.
Import ListNotations.

(** ** UTF-8 encodings of code points below 256 *)

Definition latin (s : str) : Prop := exists b, s = latin1 b.

Lemma latin_nil : latin []. Proof. now exists []. Qed.
Lemma latin_app a b : latin a -> latin b -> latin (a ++ b).
Proof. intros [x ->] [y ->]. exists (x ++ y). now rewrite latin1_app. Qed.
Lemma latin_byte c : latin (utf8_of_byte c).
Proof. exists [c]. cbn. now rewrite app_nil_r. Qed.

Lemma utf8_cases c :
  ((N_of_ascii c < 128)%N /\ utf8_of_byte c = [c])
  \/ exists a b, utf8_of_byte c = [a; b] /\ (a = ascii_of_N 194 \/ a = ascii_of_N 195)
       /\ (128 <= N_of_ascii a)%N /\ (128 <= N_of_ascii b)%N.
Proof.
  destruct c as [[] [] [] [] [] [] [] []];
    first [left; split; [vm_compute; reflexivity|reflexivity]
          |right; eexists _, _; split; [reflexivity|]; split; [vm_compute; auto|split; vm_compute; discriminate]].
Qed.

Lemma latin_trim_left s : latin s -> latin (trim_left s).
Proof.
  intros [b ->]. induction b as [|c b IH]; [exact latin_nil|].
  change (latin1 (c :: b)) with (utf8_of_byte c ++ latin1 b).
  assert (Self : latin (utf8_of_byte c ++ latin1 b)) by (exists (c :: b); reflexivity).
  destruct (utf8_cases c) as [[Lo E]|(x & y & E & Hx & Nx & Ny)]; rewrite E in *; cbn [app trim_left] in *.
  - destruct (is_space1 c); auto.
    destruct (latin1 b) as [|q t2]; auto.
    assert (is_space2 c q = false) as ->.
    { unfold is_space2. destruct (Ascii.eqb_spec c (ascii_of_N 194)); auto. subst c. vm_compute in Lo. discriminate. }
    destruct t2 as [|u t3]; auto.
    assert (is_space3 c q u = false) as ->; auto.
    clear -Lo. destruct c as [[] [] [] [] [] [] [] []]; try (exfalso; vm_compute in Lo; discriminate); reflexivity.
  - assert (is_space1 x = false) as -> by (destruct Hx; subst x; reflexivity).
    destruct (is_space2 x y); auto. destruct (latin1 b) as [|u t3]; auto.
    assert (is_space3 x y u = false) as -> by (destruct Hx; subst x; reflexivity). auto.
Qed.

Lemma latin_snoc s c : latin s -> latin (s ++ utf8_of_byte c).
Proof. intros H. apply latin_app; auto. apply latin_byte. Qed.

Lemma latin_trim_right s : latin s -> latin (rev (trim_right_rev (rev s))).
Proof.
  intros [b ->]. induction b as [|c b IH] using rev_ind; [exact latin_nil|].
  assert (Self : latin (latin1 (b ++ [c]))) by (exists (b ++ [c]); reflexivity).
  rewrite latin1_app in *. change (latin1 [c]) with (utf8_of_byte c ++ []) in *. rewrite app_nil_r in *.
  destruct (utf8_cases c) as [[Lo E]|(x & y & E & Hx & Nx & Ny)]; rewrite E in *; rewrite rev_app_distr in *;
    cbn [rev app trim_right_rev] in *.
  - destruct (is_space1 c); auto.
    assert (Self' : latin (rev (c :: rev (latin1 b)))) by (cbn [rev]; now rewrite rev_involutive).
    destruct (rev (latin1 b)) as [|q t2]; auto.
    assert (is_space2 q c = false) as ->.
    { clear -Lo. unfold is_space2. destruct c as [[] [] [] [] [] [] [] []]; try (exfalso; vm_compute in Lo; discriminate);
        apply andb_false_r. }
    destruct t2 as [|u t3]; auto.
    assert (is_space3 u q c = false) as ->; auto.
    now apply is_space3_lo3.
  - assert (is_space1 y = false) as ->.
    { clear -Ny. destruct y as [[] [] [] [] [] [] [] []]; try reflexivity; exfalso; vm_compute in Ny; congruence. }
    assert (Self' : latin (rev (y :: x :: rev (latin1 b)))) by (cbn [rev]; now rewrite rev_involutive, <- app_assoc).
    destruct (is_space2 x y); auto. destruct (rev (latin1 b)) as [|u t3]; auto.
    assert (is_space3 u x y = false) as ->; auto.
    clear -Hx. destruct Hx; subst x; destruct u as [[] [] [] [] [] [] [] []]; try reflexivity;
      destruct y as [[] [] [] [] [] [] [] []]; reflexivity.
Qed.

Lemma latin_trim s : latin s -> latin (trim_space s).
Proof. intros H. unfold trim_space. now apply latin_trim_right, latin_trim_left. Qed.

Lemma unesc_latin1 b : unesc (latin1 b) = latin1 (unesc b).
Proof.
  assert (G : forall n b, length b <= n -> unesc (latin1 b) = latin1 (unesc b)).
  { clear b. induction n as [|n IH]; intros b L.
    - destruct b; [reflexivity|cbn in L; lia].
    - destruct b as [|c b]; [reflexivity|]. cbn [length] in L.
      change (latin1 (c :: b)) with (utf8_of_byte c ++ latin1 b).
      destruct (utf8_cases c) as [[Lo E]|(x & y & E & Hx & Nx & Ny)]; rewrite E; cbn [app].
      + rewrite !unesc_cons. destruct b as [|c2 b2]; [cbn; now rewrite E|].
        change (latin1 (c2 :: b2)) with (utf8_of_byte c2 ++ latin1 b2).
        cbn [length] in L.
        destruct (utf8_cases c2) as [[Lo2 E2]|(x & y & E2 & Hx & Nx & Ny)]; rewrite E2; cbn [app].
        * destruct (Ascii.eqb c c_bs && Ascii.eqb c2 c_dq) eqn:Q.
          -- change (latin1 (c_dq :: unesc b2)) with (c_dq :: latin1 (unesc b2)). rewrite IH by lia. reflexivity.
          -- change (latin1 (c :: unesc (c2 :: b2))) with (utf8_of_byte c ++ latin1 (unesc (c2 :: b2))).
             rewrite E. cbn [app]. f_equal. rewrite <- IH by (cbn [length]; lia).
             change (latin1 (c2 :: b2)) with (utf8_of_byte c2 ++ latin1 b2). now rewrite E2.
        * assert (Ascii.eqb x c_dq = false) as -> by (destruct Hx; subst x; reflexivity).
          assert (Ascii.eqb c2 c_dq = false) as ->.
          { destruct (Ascii.eqb_spec c2 c_dq); auto. subst c2. cbn in E2. discriminate. }
          rewrite !andb_false_r.
          change (latin1 (c :: unesc (c2 :: b2))) with (utf8_of_byte c ++ latin1 (unesc (c2 :: b2))).
          rewrite E. cbn [app]. f_equal. rewrite <- IH by (cbn [length]; lia).
          change (latin1 (c2 :: b2)) with (utf8_of_byte c2 ++ latin1 b2). now rewrite E2.
      + assert (Bx : forall z t, unesc (x :: z :: t) = x :: unesc (z :: t)).
        { intros z t. rewrite unesc_cons. assert (Ascii.eqb x c_bs = false) as -> by (destruct Hx; subst x; reflexivity). auto. }
        rewrite Bx.
        assert (By : forall t, unesc (y :: t) = y :: unesc t).
        { intros t. rewrite unesc_cons. destruct t; auto.
          destruct (Ascii.eqb_spec y c_bs); auto. exfalso. subst y. vm_compute in Ny. congruence. }
        rewrite By, IH by lia.
        assert (unesc (c :: b) = c :: unesc b) as ->.
        { rewrite unesc_cons. destruct b; auto. destruct (Ascii.eqb_spec c c_bs); auto. subst c. cbn in E. discriminate. }
        change (latin1 (c :: unesc b)) with (utf8_of_byte c ++ latin1 (unesc b)). now rewrite E. }
  eauto.
Qed.

Lemma latin_clean s : latin s -> latin (clean s).
Proof.
  intros H. apply latin_trim in H. unfold clean. fold (unesc (trim_space s)).
  destruct H as [b ->]. exists (unesc b). apply unesc_latin1.
Qed.

Lemma utf8_first_dq c t : has_prefix [c_dq] (utf8_of_byte c ++ t) = true -> utf8_of_byte c = [c_dq].
Proof.
  destruct (utf8_cases c) as [[Lo Ec]|(x & y & Ec & Hx & Nx & Ny)]; rewrite Ec; cbn [app]; rewrite has_prefix1; intros Q;
    apply Ascii.eqb_eq in Q; subst; auto. destruct Hx; discriminate.
Qed.
Lemma utf8_last_dq c t : has_suffix [c_dq] (t ++ utf8_of_byte c) = true -> utf8_of_byte c = [c_dq].
Proof.
  destruct (utf8_cases c) as [[Lo Ec]|(x & y & Ec & Hx & Nx & Ny)]; rewrite Ec; intros Q.
  - rewrite has_suffix1_app in Q. apply Ascii.eqb_eq in Q. now subst.
  - exfalso. change [x; y] with ([x] ++ [y]) in Q. rewrite app_assoc, has_suffix1_app in Q.
    apply Ascii.eqb_eq in Q. subst y. vm_compute in Ny. congruence.
Qed.

Lemma slice_latin s t : latin s -> is_quoted s = true -> slice_inner s = Some t -> latin t.
Proof.
  intros [b ->] Q E. unfold is_quoted in Q. apply andb_true_iff in Q as [Q1 Q2].
  destruct b as [|c b]; [discriminate|]. change (latin1 (c :: b)) with (utf8_of_byte c ++ latin1 b) in *.
  pose proof (utf8_first_dq _ _ Q1) as C. rewrite C in *. cbn [app] in *.
  destruct b as [|c' b _] using rev_ind; [discriminate|].
  rewrite latin1_app in *. change (latin1 [c']) with (utf8_of_byte c' ++ []) in *. rewrite app_nil_r in *.
  rewrite app_comm_cons in Q2. pose proof (utf8_last_dq _ _ Q2) as C'.
  rewrite C' in E. unfold slice_inner in E.
  destruct (latin1 b ++ [c_dq]) eqn:D; [destruct (latin1 b); discriminate|].
  assert (t = removelast (latin1 b ++ [c_dq])) as -> by (rewrite D; now inversion E).
  rewrite removelast_last. now exists b.
Qed.

(** ** Scalars *)

Lemma base_digit_nonneg hex c d : base_digit hex c = Some d -> (0 <= d)%Z.
Proof.
  unfold base_digit, hex_val, digit_val.
  destruct hex; repeat match goal with |- context [if ?b then _ else _] => destruct b eqn:? end;
    intros E; inversion E; subst; rewrite ?andb_true_iff, ?Z.leb_le in *; lia.
Qed.

Lemma read_mant_nonneg hex s : forall m fd dot dig us m' fd' dot' dig' us' r,
  (0 <= m)%Z -> read_mant hex m fd dot dig us s = (m', fd', dot', dig', us', r) -> (0 <= m')%Z.
Proof.
  induction s as [|c s IH]; intros m fd dot dig us m' fd' dot' dig' us' r M; cbn [read_mant].
  - intros E; inversion E; subst; auto.
  - destruct (Ascii.eqb c c_us); [now apply IH|]. destruct (Ascii.eqb c c_dot).
    { destruct dot; [intros E; inversion E; subst; auto|now apply IH]. }
    destruct (base_digit hex c) as [d|] eqn:D; [|intros E; inversion E; subst; auto].
    apply IH. apply base_digit_nonneg in D. destruct hex; lia.
Qed.

Lemma pow_rat_pos m b e n d : (0 <= m)%Z -> (0 < b)%Z -> pow_rat m b e = (n, d) -> (0 <= n /\ 0 < d)%Z.
Proof.
  intros M B. unfold pow_rat. destruct (Z.leb_spec 0 e); intros E; inversion E; subst.
  - split; [|lia]. apply Z.mul_nonneg_nonneg; auto. apply Z.pow_nonneg. lia.
  - split; auto. apply Z.pow_pos_nonneg; lia.
Qed.

Lemma read_number_pos neg s f : read_number neg s = Some f -> exists n d, f = SynNum neg n d /\ (0 <= n /\ 0 < d)%Z.
Proof.
  unfold read_number.
  destruct (match s with a :: b :: _ :: _ => _ | _ => _ end) as [hex body].
  destruct (read_mant hex 0 0 false false false body) as [[[[[m fd] dot] dig] us] rest] eqn:R.
  apply read_mant_nonneg in R; [|lia]. destruct dig; cbn [negb]; [|discriminate].
  assert (F : forall e us' f,
    (if us' && negb (underscore_ok hex (if hex then SawDigit else SawStart) body) then None
     else let '(n, d) := if hex then pow_rat m 2 (e - 4 * fd) else pow_rat m 10 (e - fd) in Some (SynNum neg n d)) = Some f ->
     exists n d, f = SynNum neg n d /\ (0 <= n /\ 0 < d)%Z).
  { intros e us' g. destruct (_ && _); [discriminate|]. destruct hex.
    - destruct (pow_rat m 2 _) as [n d] eqn:P. intros E; inversion E; subst. exists n, d. split; auto.
      apply pow_rat_pos in P; auto. lia.
    - destruct (pow_rat m 10 _) as [n d] eqn:P. intros E; inversion E; subst. exists n, d. split; auto.
      apply pow_rat_pos in P; auto. lia. }
  destruct rest as [|c t].
  - destruct hex; [discriminate|]. apply F.
  - destruct (Ascii.eqb (lower c) _); [|discriminate].
    destruct (match t with x :: t2 => _ | [] => _ end) as [eneg t'].
    destruct t' as [|x t']; [discriminate|]. destruct (digit_val x); [|discriminate].
    destruct (read_exp 0 us (x :: t')) as [[e us'] rest']. destruct rest'; [|discriminate]. apply F.
Qed.

Lemma overflow_grows n d m e :
  (0 < d)%Z -> overflows F32 n d -> nearest F64 n d m e -> overflows F32 (units m e) (2 ^ 1074).
Proof.
  intros D O (NF & Mn & _). unfold overflows in *. cbn [prec emax] in *.
  specialize (Mn (2 ^ 25 - 1) 103)%Z.
  assert (IF : in_format F64 (2 ^ 25 - 1) 103) by (unfold in_format; cbn; lia). specialize (Mn IF).
  unfold dist in Mn.
  assert (U : units (2 ^ 25 - 1) 103 = ((2 ^ 25 - 1) * 2 ^ 103 * 2 ^ 1074)%Z).
  { unfold units. rewrite (pow2_split (103 + 1074) 103 1074) by lia. ring. }
  assert (Main : (units (2 ^ 25 - 1) 103 <= units m e)%Z).
  { destruct (Z.le_gt_cases (units (2 ^ 25 - 1) 103) (units m e)) as [|G]; auto. exfalso.
    assert (O' : ((2 ^ 25 - 1) * 2 ^ 103 * d <= n)%Z).
    { change (2 * 2 ^ 24 - 1)%Z with (2 ^ 25 - 1)%Z in O. change (2 ^ 104)%Z with (2 * 2 ^ 103)%Z in O. lia. }
    assert (P : (0 < 2 ^ 1074)%Z) by (apply pow2_pos; lia).
    clear - D G O' Mn U P. revert Mn. rewrite U in *. clear U.
    generalize dependent (2 ^ 1074)%Z. intros T. generalize dependent (units m e). intros V.
    generalize dependent ((2 ^ 25 - 1) * 2 ^ 103)%Z. intros A. intros Ad G P.
    assert (A * T * d <= n * T)%Z by nia. assert (V * d < A * T * d)%Z by nia. lia. }
  rewrite U in Main. change (2 * 2 ^ 24 - 1)%Z with (2 ^ 25 - 1)%Z. change (2 ^ 104)%Z with (2 * 2 ^ 103)%Z.
  clear -Main. generalize dependent (2 ^ 1074)%Z. intros T. generalize (units m e). intros V H. lia.
Qed.

Lemma narrow_unsigned_narrowest z : (0 <= z < 2 ^ 64)%Z -> exists k, narrow_unsigned z = SInt k z /\ narrowest unsigned_types z k.
Proof.
  intros Z0. assert (G : exists k, narrowest unsigned_types z k).
  { assert (W : forall k, In k unsigned_types -> (0 <= z <= 2 ^ width true k - 1)%Z ->
      (forall k', In k' unsigned_types -> (z <= 2 ^ width true k' - 1)%Z -> (width true k <= width true k')%Z) ->
      narrowest unsigned_types z k).
    { intros k I H H'. split; auto. split; [now apply fits_u|]. intros k' I' F. apply fits_u in F; auto. apply H'; auto. lia. }
    destruct (Z_lt_dec z (2 ^ 8)); [exists KUInt8|destruct (Z_lt_dec z (2 ^ 16)); [exists KUInt16|
      destruct (Z_lt_dec z (2 ^ 32)); [exists KUInt32|exists KUInt64]]]; apply W; cbn [unsigned_types In width]; auto; try lia;
      intros k' [<-|[<-|[<-|[<-|[]]]]]; cbn [width]; lia. }
  destruct G as [k G]. exists k. split; auto. now apply narrow_unsigned_spec.
Qed.
Lemma narrow_signed_narrowest z : (- 2 ^ 63 <= z < 2 ^ 63)%Z -> exists k, narrow_signed z = SInt k z /\ narrowest signed_types z k.
Proof.
  intros Z0. assert (G : exists k, narrowest signed_types z k).
  { assert (W : forall k, In k signed_types -> fits true k z ->
      (forall k', In k' signed_types -> fits true k' z -> (width true k <= width true k')%Z) ->
      narrowest signed_types z k).
    { intros k I H H'. split; auto. }
    assert (Fs : forall k, In k signed_types -> (fits true k z <-> (- 2 ^ (width true k - 1) <= z <= 2 ^ (width true k - 1) - 1)%Z)).
    { intros k I. now apply fits_s. }
    assert (D : forall n, {(- 2 ^ n <= z <= 2 ^ n - 1)%Z} + {~ (- 2 ^ n <= z <= 2 ^ n - 1)%Z}).
    { intros n. destruct (Z_le_dec (- 2 ^ n) z); [destruct (Z_le_dec z (2 ^ n - 1)); [left|right]|right]; lia. }
    destruct (D 7%Z); [exists KInt8|destruct (D 15%Z); [exists KInt16|
      destruct (D 31%Z); [exists KInt32|exists KInt64]]]; (apply W; [cbn; auto|apply Fs; cbn [signed_types In width]; auto; lia|]);
      intros k' I F; apply Fs in F; auto; destruct I as [<-|[<-|[<-|[<-|[]]]]]; cbn [width] in *; try lia;
      exfalso; match goal with N : ~ _ |- _ => apply N; cbn in *; lia end. }
  destruct G as [k G]. exists k. split; auto. now apply narrow_signed_spec.
Qed.

Lemma parse_float_fin k s f : In c_dot s -> parse_float k s = Some f ->
  exists neg n d, parse_float_syn s = Some (SynNum neg n d) /\ (0 <= n /\ 0 < d)%Z /\
    exists m e, f = FFin neg m e /\ nearest k n d m e.
Proof.
  intros I E. unfold parse_float in E.
  assert (S : exists r u, parse_float_syn s = r /\ (r = None \/ exists neg, r = read_number neg u)).
  { rewrite syn_dot by auto. destruct s as [|c t]; [exists None, []; auto|].
    destruct (Ascii.eqb c c_plus); [exists (read_number false t), t; eauto|].
    destruct (Ascii.eqb c c_min); [exists (read_number true t), t; eauto|].
    exists (read_number false (c :: t)), (c :: t); eauto. }
  destruct S as (r & u & Er & [->|[neg ->]]); rewrite Er in *; [discriminate|].
  destruct (read_number neg u) as [g|] eqn:R; [|discriminate].
  destruct (read_number_pos _ _ _ R) as (n & d & -> & N & D).
  exists neg, n, d. split; auto. split; auto.
  pose proof (round_pos_correct k n d N D) as C.
  destruct (round_pos k n d) as [[m e]|]; [|discriminate]. inversion E; subst. exists m, e. split; auto. apply C.
Qed.

Lemma digits_nonneg s z : numeral s z -> (0 <= z)%Z.
Proof. intros H. apply (numeral_nonneg _ _ H). Qed.

Lemma number_typed u s : number_token u = GVal (PScal s) -> u <> [] -> typed (DScal s).
Proof.
  intros E Ne. rewrite number_token_eq in E by auto. destruct (number_errs u) eqn:NE; [|discriminate].
  destruct (Nat.eqb_spec (occurrences c_dot u) 1).
  - assert (I : In c_dot u) by (apply occ_In; lia).
    destruct (parse_float F64 u) as [f|] eqn:E64; [|discriminate].
    destruct (parse_float_fin _ _ _ I E64) as (neg & n & d & Sy & [N D] & m & e' & -> & Nr).
    destruct (parse_float F32 u) as [g|] eqn:E32.
    + inversion E; subst. destruct (parse_float_fin _ _ _ I E32) as (neg' & n' & d' & Sy' & _ & m' & e2 & -> & Nr').
      constructor. apply Nr'.
    + inversion E; subst. constructor; [apply Nr|]. unfold parse_float in E32. rewrite Sy in E32.
      pose proof (round_pos_correct F32 n d N D) as C. destruct (round_pos F32 n d) as [[? ?]|]; [discriminate|].
      now apply overflow_grows with (n := n) (d := d).
  - destruct (Nat.eqb_spec (occurrences c_min u) 1).
    + destruct (parse_int 64 u) as [z|] eqn:P; [|discriminate]. apply parse_int_iff in P as [Sn Bz]; [|lia].
      destruct (narrow_signed_narrowest z) as (k & Ek & Nk); [lia|]. inversion E; subst. rewrite Ek. apply ty_neg; auto.
      destruct Sn as [H|[(t & -> & H)|(t & -> & H)]].
      * exfalso. assert (occurrences c_min u = 0); [|lia]. destruct H as (_ & F & _). apply occ_digits; auto. exact min_nd.
      * exfalso. assert (occurrences c_min t = 0) by (destruct H as (_ & F & _); apply occ_digits; auto; exact min_nd).
        change ("+"%char :: t) with (["+"%char] ++ t) in *. rewrite occ_app in *.
        change (occurrences c_min ["+"%char]) with 0 in *. lia.
      * pose proof (numeral_nonneg _ _ H). lia.
    + destruct (parse_uint 64 u) as [z|] eqn:P; [|discriminate]. apply parse_uint_iff in P as [Sn Bz].
      destruct (narrow_unsigned_narrowest z) as (k & Ek & Nk).
      { pose proof (digits_nonneg _ _ Sn). lia. }
      inversion E; subst. rewrite Ek. now apply ty_nat.
Qed.

Lemma strip_ne v : str_eqb (strip_token v) [] = false -> strip_token v <> [].
Proof. intros E Q. rewrite Q in E. discriminate. Qed.

Definition ptyped (p : payload) : Prop := match p with PScal s => typed (DScal s) | _ => True end.

Lemma scalar_typed v p : scalar_token v = GVal p -> ptyped p.
Proof.
  unfold scalar_token.
  destruct (str_eqb (strip_token v) (lit "true")); [intros E; inversion E; constructor|].
  destruct (str_eqb (strip_token v) (lit "false")); [intros E; inversion E; constructor|].
  destruct (str_eqb (strip_token v) (lit "null")); [intros E; inversion E; exact I|].
  destruct (str_eqb (strip_token v) []) eqn:Q; [intros E; inversion E; exact I|].
  intros E. apply strip_ne in Q. destruct p; cbn; auto. now apply number_typed in E.
Qed.

Lemma value_text_typed im key value k p :
  latin key -> latin value -> value_text im key value = Ok (GVal (k, p)) -> (im = true -> latin k) /\ ptyped p.
Proof.
  intros K V. apply latin_clean in K, V. unfold value_text. cbn zeta.
  revert K V. generalize (clean key), (clean value). intros k0 v0 K V.
  assert (A : forall ke : str * list err, 
    (if im then if is_quoted k0 then match slice_inner k0 with Some k' => Ok (k', []) | None => Panic end
            else Ok (k0, [EKeyQuote]) else Ok (k0, [])) = Ok ke -> latin (fst ke)).
  { intros ke. destruct im; [|intros E; inversion E; auto]. destruct (is_quoted k0) eqn:Q; [|intros E; inversion E; auto].
    destruct (slice_inner k0) eqn:SI; [|discriminate]. intros E; inversion E; subst. now apply slice_latin with (s := k0). }
  destruct (if im then _ else _) as [ke| | |] eqn:E1; try discriminate. cbn [rbind].
  specialize (A _ eq_refl).
  assert (B : forall ve : bool * str * list err, 
    (if contains_byte c_dq v0 then
            if is_quoted v0 then
              match slice_inner v0 with Some v' => Ok (true, v', []) | None => Panic end
            else Ok (false, v0, [EValQuote])
          else Ok (false, v0, [])) = Ok ve -> latin (snd (fst ve))).
  { intros ve. destruct (contains_byte c_dq v0); [|intros E; inversion E; auto].
    destruct (is_quoted v0) eqn:Q; [|intros E; inversion E; auto].
    destruct (slice_inner v0) eqn:SI; [|discriminate]. intros E; inversion E; subst. now apply slice_latin with (s := v0). }
  destruct (if contains_byte c_dq v0 then _ else _) as [ve| | |] eqn:E2; try discriminate. cbn [rbind].
  specialize (B _ eq_refl).
  destruct (snd ke ++ snd ve); [|discriminate]. destruct (fst (fst ve)).
  - intros E; inversion E; subst. split; auto. destruct B as [b ->]. constructor.
  - destruct (scalar_token _) eqn:Es; [|discriminate]. intros E; inversion E; subst. split; auto. now apply scalar_typed in Es.
Qed.

(** ** The machine *)
Definition ftyped (f : frame) : Prop :=
  match f with
  | FMap es => NoDup (map fst es) /\ Forall (fun kd => latin (fst kd) /\ typed (snd kd)) es
  | FArr ds => Forall typed ds
  end.
Definition atyped (a : att) : Prop := match a with AKey k => latin k | _ => True end.
Definition styped (stk : list (frame * att)) : Prop := Forall (fun fa => ftyped (fst fa) /\ atyped (snd fa)) stk.
Definition rtyped (r : root) : Prop := match r with RDone d => typed d | _ => True end.
Record tinv (st : tst) : Prop := {
  ti_tk : latin (t_tk st); ti_tv : latin (t_tv st); ti_stk : styped (t_stk st); ti_root : rtyped (t_root st) }.

Lemma close_typed f : ftyped f -> typed (close f).
Proof. destruct f; cbn; [intros [? ?]|]; constructor; auto. Qed.

Lemma put_typed k d f : ((is_fmap f = true) -> latin k) -> typed d -> ftyped f -> ftyped (put_doc k (Some d) f).
Proof.
  intros K D. destruct f as [es|ds]; cbn.
  - intros [N F]. split; [now apply dict_ok_set|]. rewrite Forall_forall in *. intros x I.
    apply dict_set_In in I as [->|I]; auto.
  - intros F. apply Forall_app. auto.
Qed.

Lemma att_put_typed a d f : atyped a -> typed d -> ftyped f -> ftyped (att_put a d f).
Proof.
  intros A D F. destruct a; cbn [att_put]; auto; apply put_typed; auto. intros _. exact latin_nil.
Qed.

Lemma t_value_typed k v stk q : latin k -> latin v -> styped stk -> t_value k v stk = Ok q -> styped (fst q).
Proof.
  intros K V S. destruct stk as [|[f a] t]; cbn [t_value]; [intros E; inversion E; constructor|].
  destruct (value_text (is_fmap f) k v) as [r| | |] eqn:E; try discriminate. cbn [rbind].
  destruct r as [[k' p]|e]; [|intros Q; inversion Q; auto].
  apply value_text_typed in E as [Lk P]; auto. intros Q; inversion Q; subst. cbn [fst put_top].
  inversion S as [|x y [Hf Ha] St]; subst. constructor; auto. split; auto. cbn [fst snd] in *.
  destruct p; cbn [doc_of]; auto; apply put_typed; auto. constructor.
Qed.

Lemma t_pop_typed stk r q : styped stk -> rtyped r -> t_pop stk r = Ok q -> styped (fst q) /\ rtyped (snd q).
Proof.
  intros S R. destruct stk as [|[f a] [|[g b] t]]; cbn [t_pop]; intros E; inversion E; subst; cbn [fst snd].
  - inversion S as [|x y [Hf Ha] St]; subst. split; [constructor|]. destruct r; cbn; auto. now apply close_typed.
  - inversion S as [|x y [Hf Ha] St]; subst. inversion St as [|x y [Hg Hb] St']; subst. split; auto. constructor; auto.
    split; auto. cbn [fst snd] in *. apply att_put_typed; auto. now apply close_typed.
Qed.

Lemma t_attach_typed tk stk q : latin tk -> t_attach tk stk = Ok q -> atyped (fst q).
Proof.
  intros K. destruct stk as [|[f a] t]; cbn [t_attach]; [intros E; inversion E; exact I|].
  destruct (is_fmap f); [|intros E; inversion E; exact I]. unfold unquote_key.
  destruct (is_quoted tk) eqn:Q; [|cbn; intros E; inversion E; exact I].
  destruct (slice_inner tk) eqn:SI; cbn; [|discriminate]. intros E; inversion E; subst. cbn.
  now apply slice_latin with (s := tk).
Qed.

Lemma t_end_typed pop st st' : tinv st -> t_end pop st = Ok st' -> tinv st'.
Proof.
  intros [K V S R]. unfold t_end.
  destruct (t_value _ _ _) as [q| | |] eqn:E; try discriminate. cbn [rbind]. apply t_value_typed in E; auto.
  destruct pop.
  - destruct (t_pop _ _) as [l| | |] eqn:E2; try discriminate. cbn [rbind]. apply t_pop_typed in E2 as [? ?]; auto.
    intros Q; inversion Q; subst. constructor; cbn; auto; exact latin_nil.
  - cbn [rbind fst snd]. intros Q; inversion Q; subst. constructor; cbn; auto; exact latin_nil.
Qed.

Lemma ftyped_map0 : ftyped (FMap []). Proof. split; constructor. Qed.
Lemma ftyped_arr0 : ftyped (FArr []). Proof. constructor. Qed.

Lemma t_step_mode_typed q b st st' : tinv st -> t_step_mode q b st = Ok st' -> tinv st'.
Proof.
  intros T. pose proof T as [K V S R].
  assert (AK : forall m, tinv (t_add_key (utf8_of_byte b) (t_set_mode m st))).
  { intros m. constructor; cbn; auto. now apply latin_snoc. }
  assert (AV : tinv (t_add_val (utf8_of_byte b) (t_set_mode MValue st))).
  { constructor; cbn; auto. now apply latin_snoc. }
  assert (SM : forall m, tinv (t_set_mode m st)) by (intros m; constructor; cbn; auto).
  assert (Val : (let st := t_set_mode MValue st in
        if negb (t_ps st) then
          if Ascii.eqb b c_lb then t_open_map st
          else if Ascii.eqb b c_rb then t_end true st
          else if Ascii.eqb b c_ls then t_open_array st
          else if Ascii.eqb b c_rs then t_end true st
          else if Ascii.eqb b c_com then t_end false st
          else Ok (t_add_val (utf8_of_byte b) st)
        else Ok (t_add_val (utf8_of_byte b) st)) = Ok st' -> tinv st').
  { cbn zeta. destruct (negb _); [|intros E; inversion E; subst; auto].
    destruct (Ascii.eqb b c_lb).
    { unfold t_open_map. destruct (t_attach _ _) as [a| | |] eqn:E; try discriminate. cbn [rbind].
      apply t_attach_typed in E; auto. intros Q; inversion Q; subst. constructor; cbn; try exact latin_nil.
      - constructor; auto. split; auto. apply ftyped_map0.
      - destruct (t_root st); auto; exact I. }
    destruct (Ascii.eqb b c_rb); [now apply t_end_typed|].
    destruct (Ascii.eqb b c_ls).
    { unfold t_open_array. destruct (t_stk (t_set_mode MValue st)) as [|fa t] eqn:Es; [discriminate|]. rewrite <- Es.
      destruct (t_attach _ _) as [a| | |] eqn:E; try discriminate. cbn [rbind].
      apply t_attach_typed in E; auto. intros Q; inversion Q; subst. constructor; cbn; try exact latin_nil; auto.
      constructor; auto. split; auto. apply ftyped_arr0. }
    destruct (Ascii.eqb b c_rs); [now apply t_end_typed|].
    destruct (Ascii.eqb b c_com); [now apply t_end_typed|].
    intros E; inversion E; subst; auto. }
  unfold t_step_mode. destruct (t_mode st) eqn:M.
  - destruct (Ascii.eqb b c_rb).
    + unfold t_close_keys. destruct (t_pop _ _) as [l| | |] eqn:E; try discriminate. cbn [rbind].
      apply t_pop_typed in E as [? ?]; auto. intros Q; inversion Q; subst. constructor; cbn; auto; exact latin_nil.
    + destruct q; intros E; inversion E; subst; auto.
  - intros E; inversion E; subst. destruct q; [apply AK|]. constructor; cbn; auto. now apply latin_snoc.
  - intros E; inversion E; subst. destruct (Ascii.eqb b c_col); auto.
  - cbn [andb]. exact Val.
  - destruct (true && _); [intros E; inversion E; subst; auto|]. exact Val.
Qed.

Lemma t_step_typed prev b st st' : tinv st -> t_step prev b st = Ok st' -> tinv st'.
Proof.
  intros T. pose proof T as [K V S R]. unfold t_step. cbn zeta.
  set (q := Ascii.eqb b c_dq && _). clearbody q.
  assert (SP : forall p c, tinv (t_set_ps p c st)) by (intros; constructor; cbn; auto).
  destruct (negb (t_ps st)).
  - destruct q; now apply t_step_mode_typed.
  - destruct q; [|now apply t_step_mode_typed].
    assert (AV : tinv (t_add_val (utf8_of_byte b) (t_set_ps false (count_close (t_cnt st)) st))).
    { constructor; cbn; auto. now apply latin_snoc. }
    destruct (t_mode _); first [now apply t_step_mode_typed|now apply t_end_typed].
Qed.

Lemma t_loop_typed s : forall prev st st', tinv st -> t_loop prev s st = Ok st' -> tinv st'.
Proof.
  induction s as [|b s IH]; intros prev st st' T; cbn [t_loop]; [intros E; inversion E; subst; auto|].
  destruct (t_step prev b st) as [st1| | |] eqn:E; try discriminate. cbn [rbind]. apply IH. now apply t_step_typed in E.
Qed.

Lemma close_all_typed stk : forall up r,
  (forall f, ftyped f -> ftyped (up f)) -> styped stk -> rtyped r -> rtyped (close_all up stk r).
Proof.
  induction stk as [|[f a] t IH]; intros up r U S R; cbn [close_all]; auto.
  inversion S as [|x y [Hf Ha] St]; subst. cbn [fst snd] in *. destruct t as [|fb t].
  - destruct r; cbn; auto. apply close_typed. auto.
  - apply IH; auto. intros g G. apply att_put_typed; auto. apply close_typed. auto.
Qed.

Theorem tparse_typed s d : tparse s = Ok (GVal (Some d)) -> typed d.
Proof.
  unfold tparse. destruct (pre_errs s); [|discriminate]. destruct (str_eqb s (lit "{}")).
  { intros E; inversion E. apply ty_map; constructor. }
  destruct (t_loop None s tst0) as [st| | |] eqn:E; try discriminate. cbn [rbind].
  destruct (t_errs st); [|discriminate]. destruct (post_errs _); [|discriminate].
  assert (T : tinv st).
  { apply t_loop_typed in E; auto. constructor; cbn; try exact latin_nil; [constructor|exact I]. }
  destruct T as [_ _ S R]. intros Q. inversion Q as [Q'].
  assert (C : rtyped (collapse (t_stk st) (t_root st))) by (apply close_all_typed; auto).
  destruct (collapse _ _); cbn in Q'; inversion Q'; subst; auto.
Qed.

(** Every outcome of Parse, on any byte string. *)
Theorem parse_outcomes X h s :
  reachable X h ->
  Parse X s h = Panic \/ (exists e, parses X h s (GErr e)) \/ (exists d, typed d /\ parses X h s (GVal d)).
Proof.
  intros R. pose proof (parse_refines X h s R) as P. destruct (tparse s) as [r| | |] eqn:E; cbn [parse_result] in P; try tauto.
  destruct r as [[d|]|e]; cbn in P.
  - right; right. exists d. split; [now apply tparse_typed in E|]. now apply parses_tree.
  - contradiction.
  - right; left. exists e. now apply parses_tree.
Qed.
