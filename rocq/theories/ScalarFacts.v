(** * Every unquoted scalar: the model computes what the specification says *)
From Coq Require Import Ascii String List NArith ZArith Bool Lia.
From Verif Require Import GoStr GoNum GoFloat Heap Common ValueModel ArrayModel MapModel ParserModel
  StrLemmas SpecDict SpecNum NumLemmas SpecFloat FloatFacts SpecDoc SpecText SpecToken TreeParser TextRun TokenFacts SpecScalar.
Import ListNotations.

Definition digit_inb (hex : bool) (c : ascii) : bool :=
  match base_digit hex c with Some v => Z.eqb v (face c) | None => false end.

Lemma all_bytes (p : ascii -> bool) :
  forallb (fun n => p (ascii_of_nat n)) (seq 0 256) = true -> forall c, p c = true.
Proof.
  intros H c. rewrite forallb_forall in H. rewrite <- (ascii_nat_embedding c). apply H. apply in_seq.
  pose proof (nat_ascii_bounded c). lia.
Qed.

Lemma base_face hex c v : base_digit hex c = Some v -> v = face c.
Proof.
  intros H. assert (G : forall hex, (fun c => match base_digit hex c with Some v => Z.eqb v (face c) | None => true end) c = true).
  { intros b. apply (all_bytes (fun c => match base_digit b c with Some v => Z.eqb v (face c) | None => true end)). destruct b; vm_compute; reflexivity. }
  specialize (G hex). cbn beta in G. rewrite H in G. now apply Z.eqb_eq in G.
Qed.

Lemma digit_in_dec hex c : digit_in hex c <-> exists v, base_digit hex c = Some v.
Proof.
  split.
  - intros [H|[-> H]].
    + exists (digit c). unfold base_digit, hex_val. rewrite digit_val_digit by auto. now destruct hex.
    + cbn in H. repeat (destruct H as [<-|H]; [eexists; reflexivity|]). destruct H.
  - intros (v & H). destruct hex; cbn [base_digit] in H.
    + assert (G : (fun c => implb (match hex_val c with Some _ => true | None => false end)
        (match digit_val c with Some _ => true | None => existsb (Ascii.eqb c) (lit "abcdefABCDEF") end)) c = true).
      { apply (all_bytes (fun c => implb (match hex_val c with Some _ => true | None => false end)
        (match digit_val c with Some _ => true | None => existsb (Ascii.eqb c) (lit "abcdefABCDEF") end))). vm_compute. reflexivity. }
      cbn beta in G. rewrite H in G. cbn [implb] in G. pose proof (digit_val_spec c) as D.
      destruct (digit_val c); [left; tauto|]. right. split; auto.
      apply existsb_exists in G as (x & I & Q). apply Ascii.eqb_eq in Q. now subst.
    + left. pose proof (digit_val_spec c) as D. rewrite H in D. tauto.
Qed.

Lemma not_digit_in hex c : base_digit hex c = None -> ~ digit_in hex c.
Proof. intros H D. apply digit_in_dec in D as (v & D). congruence. Qed.
Lemma digit_in_us hex : ~ digit_in hex c_us.
Proof. apply not_digit_in. destruct hex; reflexivity. Qed.
Lemma digit_in_dot hex : ~ digit_in hex c_dot.
Proof. apply not_digit_in. destruct hex; reflexivity. Qed.

(** ** Mantissa *)

Definition mbyte (hex : bool) (c : ascii) : Prop := c = c_us \/ digit_in hex c.

Lemma read_mant_run hex s : forall m fd dot dig us r, Forall (mbyte hex) s ->
  read_mant hex m fd dot dig us (s ++ r)
  = read_mant hex (m * base hex ^ Z.of_nat (length (without_us s)) + number hex (without_us s))
      (if dot then fd + Z.of_nat (length (without_us s)) else fd)%Z dot
      (dig || match without_us s with [] => false | _ => true end) (us || existsb (Ascii.eqb c_us) s) r.
Proof.
  induction s as [|c s IH]; intros * F.
  - cbn [app length without_us filter number existsb]. rewrite !orb_false_r. f_equal; [change (base hex ^ Z.of_nat 0)%Z with 1%Z; lia|].
    destruct dot; lia.
  - inversion F as [|? ? Hc Hs]; subst. cbn [app read_mant]. destruct Hc as [->|Hc].
    + rewrite ascii_eqb_refl. rewrite IH by auto. unfold without_us. cbn [filter existsb]. change (Ascii.eqb c_us "_"%char) with true.
      cbn [negb]. rewrite ascii_eqb_refl. cbn [orb]. now rewrite orb_true_r.
    + assert (c <> c_us) as N1 by (intros ->; now apply digit_in_us in Hc).
      assert (c <> c_dot) as N2 by (intros ->; now apply digit_in_dot in Hc).
      rewrite (eqb_ne _ _ N1), (eqb_ne _ _ N2). apply digit_in_dec in Hc as (v & Hc). rewrite Hc.
      rewrite IH by auto. unfold without_us. cbn [filter existsb]. change "_"%char with c_us. rewrite (eqb_ne _ _ N1). cbn [negb].
      rewrite (eqb_ne c_us c) by congruence. cbn [orb]. cbn [length number]. fold (without_us s).
      rewrite (base_face _ _ _ Hc). rewrite orb_true_r. f_equal.
      * rewrite Nat2Z.inj_succ, Z.pow_succ_r by lia. unfold base. destruct hex; ring.
      * destruct dot; lia.
Qed.

Lemma read_mant_stop hex m fd dot dig us s : 
  match s with [] => True | c :: _ => ~ mbyte hex c /\ (c = c_dot -> dot = true) end ->
  read_mant hex m fd dot dig us s = (m, fd, dot, dig, us, s).
Proof.
  destruct s as [|c s]; auto. intros [N D]. cbn [read_mant].
  destruct (Ascii.eqb_spec c c_us) as [->|N1]; [exfalso; apply N; now left|].
  destruct (Ascii.eqb_spec c c_dot) as [->|N2]; [now rewrite D|].
  destruct (base_digit hex c) as [v|] eqn:B; auto. exfalso. apply N. right. apply digit_in_dec. eauto.
Qed.

(** The longest prefix of mantissa bytes. *)
Lemma span hex (s : str) : exists a b, s = a ++ b /\ Forall (mbyte hex) a /\ match b with [] => True | c :: _ => ~ mbyte hex c end.
Proof.
  induction s as [|c s (a & b & -> & F & H)]; [exists [], []; auto|].
  destruct (Ascii.eqb_spec c c_us) as [->|N].
  { exists (c_us :: a), b. split; auto. split; auto. constructor; auto. now left. }
  destruct (base_digit hex c) as [v|] eqn:B.
  - exists (c :: a), b. split; auto. split; auto. constructor; auto. right. apply digit_in_dec. eauto.
  - exists [], (c :: a ++ b). split; auto. split; auto. intros [->|D]; [congruence|]. now apply not_digit_in in D.
Qed.

(** ** Exponents *)

Definition capped (ds : str) (e : Z) : Prop :=
  exists a b, ds = a ++ b /\ e = decimal a /\ (b = [] \/ (10000 <= decimal a)%Z) /\ (decimal (removelast a) < 10000)%Z.

Lemma decimal_snoc a c : decimal (a ++ [c]) = (decimal a * 10 + digit c)%Z.
Proof. rewrite decimal_app. cbn. lia. Qed.

Lemma read_exp_run s : forall a b us, Forall (fun y => is_digit y \/ y = c_us) s ->
  Forall is_digit a -> (b = [] \/ (10000 <= decimal a)%Z) -> (decimal (removelast a) < 10000)%Z ->
  exists a' b', a ++ b ++ without_us s = a' ++ b' /\ (b' = [] \/ (10000 <= decimal a')%Z) /\ (decimal (removelast a') < 10000)%Z
    /\ read_exp (decimal a) us s = (decimal a', us || existsb (Ascii.eqb c_us) s, []).
Proof.
  induction s as [|c s IH]; intros a b us F Fa B L.
  - exists a, b. cbn. rewrite app_nil_r, orb_false_r. auto.
  - inversion F as [|? ? Hc Hs]; subst. cbn [read_exp]. unfold without_us. cbn [filter existsb]. change "_"%char with c_us.
    fold (without_us s). destruct (Ascii.eqb_spec c c_us) as [->|N].
    + cbn [negb]. rewrite ascii_eqb_refl. cbn [orb]. rewrite orb_true_r. destruct (IH a b true Hs Fa B L) as (a' & b' & H). exists a', b'. exact H.
    + destruct Hc as [Hc|Hc]; [|congruence]. rewrite digit_val_digit by auto. cbn [negb]. rewrite (eqb_ne c_us c) by congruence. cbn [orb].
      destruct (Z.ltb_spec (decimal a) 10000).
      * destruct B as [->|B]; [|lia]. rewrite <- decimal_snoc.
        destruct (IH (a ++ [c]) [] us Hs ltac:(apply Forall_app; auto) (or_introl eq_refl) ltac:(rewrite removelast_last; lia)) as (a' & b' & E & H').
        exists a', b'. split; [|exact H']. rewrite <- E, <- app_assoc. reflexivity.
      * destruct (IH a (b ++ [c]) us Hs Fa ltac:(auto) L) as (a' & b' & E & H'). exists a', b'. split; [|exact H'].
        rewrite <- E, <- app_assoc. reflexivity.
Qed.

Lemma capped_fun_aux a b a' b' : a ++ b = a' ++ b' -> Forall is_digit (a ++ b) ->
  (b = [] \/ (10000 <= decimal a)%Z) -> (decimal (removelast a) < 10000)%Z ->
  (b' = [] \/ (10000 <= decimal a')%Z) -> (decimal (removelast a') < 10000)%Z -> (length a <= length a')%nat -> a = a'.
Proof.
  intros E F B L B' L' Len. assert (exists u, a' = a ++ u) as (u & ->).
  { destruct (app_eq_app _ _ _ _ E) as (l & [[-> _]|[-> _]]); [|eauto].
    rewrite app_length in Len. destruct l; [exists []; now rewrite !app_nil_r|cbn in Len; lia]. }
  destruct u as [|c u]; [now rewrite app_nil_r|]. exfalso.
  assert (b <> []) as Nb. { intros ->. apply (f_equal (@length ascii)) in E. rewrite !app_length in E. cbn in E. lia. }
  destruct B as [B|B]; [congruence|].
  assert (removelast (a ++ c :: u) = a ++ removelast (c :: u)) as R by (apply removelast_app; discriminate). rewrite R in L'.
  rewrite decimal_app in L'. rewrite E in F. rewrite <- app_assoc in F. apply Forall_app in F as [Fa F].
  assert (Forall is_digit (removelast (c :: u))) as Fr.
  { apply Forall_app in F as [F _]. rewrite Forall_forall in *. intros x I. apply F.
    clear -I. revert c I. induction u as [|d u IH]; intros c I; [destruct I|]. cbn [removelast] in I. destruct I as [->|I]; [now left|]. right. now apply IH. }
  pose proof (decimal_nonneg _ Fr). pose proof (decimal_nonneg _ Fa).
  pose proof (Z.pow_pos_nonneg 10 (Z.of_nat (length (removelast (c :: u)))) ltac:(lia) ltac:(lia)). nia.
Qed.

Lemma capped_fun ds e e' : Forall is_digit ds -> capped ds e -> capped ds e' -> e = e'.
Proof.
  intros F (a & b & E & -> & B & L) (a' & b' & E' & -> & B' & L'). f_equal.
  destruct (Nat.le_ge_cases (length a) (length a')).
  - eapply (capped_fun_aux a b a' b'); eauto; congruence.
  - symmetry. eapply (capped_fun_aux a' b' a b); eauto; congruence.
Qed.

Lemma read_exp_capped s us : Forall (fun y => is_digit y \/ y = c_us) s ->
  exists e, capped (without_us s) e /\ (0 <= e)%Z /\ read_exp 0 us s = (e, us || existsb (Ascii.eqb c_us) s, []).
Proof.
  intros F. destruct (read_exp_run s [] [] us F (Forall_nil _) (or_introl eq_refl) ltac:(cbn; lia)) as (a & b & E & B & L & R).
  cbn [app decimal] in *. exists (decimal a). split; [exists a, b; auto|]. split; [|exact R].
  apply decimal_nonneg. assert (G : Forall is_digit (without_us s)).
  { clear -F. induction F as [|c s H F IH]; [constructor|]. unfold without_us. cbn [filter]. change "_"%char with c_us.
    destruct (Ascii.eqb_spec c c_us); cbn [negb]; auto. constructor; auto. tauto. }
  rewrite E in G. now apply Forall_app in G.
Qed.

(** ** Underscores *)

Definition sep (hex : bool) (ok0 : Prop) (s : str) : Prop :=
  forall a b, s = a ++ c_us :: b ->
    match rev a with x :: _ => digit_in hex x | [] => ok0 end
    /\ match b with y :: _ => digit_in hex y | [] => False end.

Lemma sep_cons hex ok0 c s : sep hex ok0 (c :: s) <->
  (c = c_us -> ok0 /\ match s with y :: _ => digit_in hex y | [] => False end) /\ sep hex (digit_in hex c) s.
Proof.
  split.
  - intros H. split.
    + intros ->. exact (H [] s eq_refl).
    + intros a b ->. specialize (H (c :: a) b eq_refl). cbn [rev] in H.
      destruct (rev a) as [|x l]; exact H.
  - intros [H1 H2] [|x a] b E; cbn [app] in E; inversion E; subst; [now apply H1|].
    specialize (H2 a b eq_refl). cbn [rev]. destruct (rev a); exact H2.
Qed.

Lemma sep_iff hex ok ok' s : (ok <-> ok') -> sep hex ok s <-> sep hex ok' s.
Proof. intros E. split; intros H a b Q; specialize (H a b Q); destruct (rev a); tauto. Qed.

Lemma underscore_iff hex s : forall saw, underscore_ok hex saw s = true <->
  sep hex (saw = SawDigit) s /\ (saw = SawUnder -> match s with y :: _ => digit_in hex y | [] => False end).
Proof.
  induction s as [|c s IH]; intros saw; cbn [underscore_ok].
  - split.
    + intros H. split; [intros [|? ?] b E; discriminate|]. now intros ->.
    + intros [_ H]. destruct saw; auto; destruct (H eq_refl).
  - rewrite sep_cons. destruct (base_digit hex c) as [v|] eqn:B.
    + assert (D : digit_in hex c) by (apply digit_in_dec; eauto).
      rewrite IH. rewrite (sep_iff hex (SawDigit = SawDigit) (digit_in hex c)) by tauto.
      assert (c <> c_us) by (intros ->; now apply digit_in_us in D). split.
      * intros [H1 H2]. split; auto. split; [congruence|auto].
      * intros [[_ H1] _]. split; auto. discriminate.
    + pose proof (not_digit_in hex c B) as N. destruct (Ascii.eqb_spec c c_us) as [->|Ne].
      * destruct saw.
        1,3,4: split; [discriminate|]; intros [[H _] _]; destruct (H eq_refl); discriminate.
        rewrite IH. rewrite (sep_iff hex (SawUnder = SawDigit) (digit_in hex c_us)) by (split; [discriminate|tauto]).
        split.
        { intros [H1 H2]. split; [|discriminate]. split; [intros _; split; [auto|exact (H2 eq_refl)]|exact H1]. }
        intros [[H1 H2] _]. split; auto. intros _. now destruct (H1 eq_refl).
      * destruct saw.
        3: { split; [discriminate|]. intros [_ H]. specialize (H eq_refl). tauto. }
        all: rewrite IH; rewrite (sep_iff hex (SawOther = SawDigit) (digit_in hex c)) by (split; [discriminate|tauto]);
          (split; [intros [H1 H2]; split; [split; [congruence|auto]|discriminate] | intros [[H1 H2] _]; split; auto; discriminate]).
Qed.

Lemma sep_none hex ok s : existsb (Ascii.eqb c_us) s = false -> sep hex ok s.
Proof.
  intros H a b ->. rewrite existsb_app in H. cbn [existsb] in H. rewrite ascii_eqb_refl in H. cbn in H. rewrite orb_true_r in H. discriminate.
Qed.

Lemma us_check hex s : existsb (Ascii.eqb c_us) s && negb (underscore_ok hex (if hex then SawDigit else SawStart) s) = false <-> separated hex s.
Proof.
  assert (E : separated hex s <-> sep hex ((if hex then SawDigit else SawStart) = SawDigit) s).
  { unfold separated. change "_"%char with c_us. apply (sep_iff hex). destruct hex; split; auto; discriminate. }
  rewrite E. destruct (existsb (Ascii.eqb c_us) s) eqn:U; cbn [andb].
  - rewrite negb_false_iff, underscore_iff. destruct hex; split; try tauto; intros H; split; auto; discriminate.
  - split; auto. intros _. now apply sep_none.
Qed.
