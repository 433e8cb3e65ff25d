(** * Unquoted scalars: the model computes what the specification says *)
From Coq Require Import Ascii String List NArith ZArith Bool Lia.
From Verif Require Import GoStr GoNum GoFloat Heap Common ValueModel ArrayModel MapModel ParserModel
  StrLemmas SpecDict SpecNum NumLemmas SpecFloat FloatFacts SpecDoc SpecText SpecToken TreeParser TextRun.
Import ListNotations.

Lemma plain_lo c : plain c -> (N_of_ascii c < 128)%N.
Proof. intros [[->|[->|[->| ->]]]|[H _]]; [reflexivity..|lia]. Qed.

Lemma plain_ndq c : plain c -> c <> c_dq.
Proof. intros [[->|[->|[->| ->]]]|[_ H]]; [discriminate..|auto]. Qed.

Lemma plain_space c : plain c -> is_space1 c = true -> ignored c = true.
Proof.
  intros [[->|[->|[->| ->]]]|[H _]] E; try reflexivity. exfalso.
  unfold is_space1 in E. rewrite !orb_true_iff, !Ascii.eqb_eq in E.
  destruct E as [[[[[->| ->]| ->]| ->]| ->]| ->]; vm_compute in H; destruct H; congruence.
Qed.

Lemma unesc_nodq s : ~ In c_dq s -> unesc s = s.
Proof.
  induction s as [|a s IH]; intros H; auto.
  rewrite unesc_cons. destruct s as [|b t]; auto.
  destruct (Ascii.eqb_spec b c_dq) as [->|E].
  - exfalso. apply H. right; now left.
  - rewrite andb_false_r. f_equal. apply IH. intros I. apply H. now right.
Qed.

Lemma trim_left_plain s : Forall plain s ->
  exists b, s = b ++ trim_left s /\ Forall (fun c => is_space1 c = true) b.
Proof.
  induction 1 as [|c s P F IH]; [exists []; auto|].
  destruct (is_space1 c) eqn:E.
  - destruct IH as (b & E1 & E2). exists (c :: b). cbn [app]. rewrite trim_left_blank by auto.
    split; [now f_equal | now constructor].
  - exists []. cbn [app]. rewrite trim_left_id; [auto|]. split; auto. now apply plain_lo.
Qed.

Lemma trim_right_plain s : Forall plain s ->
  exists b, s = b ++ trim_right_rev s /\ Forall (fun c => is_space1 c = true) b.
Proof.
  induction 1 as [|c s P F IH]; [exists []; auto|].
  destruct (is_space1 c) eqn:E.
  - destruct IH as (b & E1 & E2). exists (c :: b). cbn [app]. cbn [trim_right_rev]. rewrite E.
    split; [now f_equal | now constructor].
  - exists []. cbn [app]. rewrite trim_right_rev_id; [auto|]. split; auto. now apply plain_lo.
Qed.

Lemma squeeze_app a b : squeeze (a ++ b) = squeeze a ++ squeeze b.
Proof. apply filter_app. Qed.

Lemma squeeze_spaces b : Forall plain b -> Forall (fun c => is_space1 c = true) b -> squeeze b = [].
Proof.
  intros P. induction 1 as [|c b H F IH]; auto. inversion P; subst. unfold squeeze in *. cbn [filter].
  rewrite plain_space by auto. cbn [negb]. auto.
Qed.

Lemma squeeze_blanks b : blanks b -> squeeze b = [].
Proof.
  induction 1 as [|c b H F IH]; auto. cbn. destruct H as [->|[->|[->| ->]]]; exact IH.
Qed.

Lemma squeeze_trim s : Forall plain s -> squeeze (trim_space s) = squeeze s /\ Forall plain (trim_space s).
Proof.
  intros P. destruct (trim_left_plain s P) as (b & E & B).
  assert (P1 : Forall plain b /\ Forall plain (trim_left s)) by (apply Forall_app; now rewrite <- E).
  destruct P1 as [Pb Pl].
  destruct (trim_right_plain (rev (trim_left s))) as (b' & E' & B').
  { now apply Forall_rev. }
  assert (P2 : Forall plain b' /\ Forall plain (trim_right_rev (rev (trim_left s)))).
  { apply Forall_app. rewrite <- E'. now apply Forall_rev. }
  destruct P2 as [Pb' Pr].
  assert (E2 : trim_left s = trim_space s ++ rev b').
  { unfold trim_space. rewrite <- rev_app_distr, <- E'. now rewrite rev_involutive. }
  split.
  - rewrite E at 2. rewrite E2, !squeeze_app, (squeeze_spaces b), (squeeze_spaces (rev b')) by
      (auto; now apply Forall_rev). now rewrite app_nil_r.
  - unfold trim_space. now apply Forall_rev.
Qed.

Lemma strip_squeeze s : strip_token s = squeeze s.
Proof.
  unfold strip_token, squeeze. rewrite !remove_byte_filter.
  induction s as [|c s IH]; auto. cbn [filter].
  unfold ignored at 1. cbn [existsb].
  rewrite !(Ascii.eqb_sym c).
  destruct (Ascii.eqb c_nl c) eqn:E1; cbn [negb filter]; [rewrite !orb_true_r; exact IH|].
  destruct (Ascii.eqb c_tab c) eqn:E2; cbn [negb filter]; [rewrite !orb_true_r; exact IH|].
  destruct (Ascii.eqb c_sp c) eqn:E3; cbn [negb filter]; [exact IH|].
  destruct (Ascii.eqb c_cr c) eqn:E4; cbn [negb filter]; [exact IH|].
  destruct (Ascii.eqb c_bs c) eqn:E5; cbn [negb filter orb]; [exact IH|].
  now rewrite IH.
Qed.

Lemma clean_plain s : Forall plain s -> strip_token (clean s) = squeeze s.
Proof.
  intros P. destruct (squeeze_trim s P) as [E Q]. rewrite strip_squeeze.
  unfold clean. fold (unesc (trim_space s)). rewrite unesc_nodq; auto.
  intros I. rewrite Forall_forall in Q. apply Q in I. now apply plain_ndq in I.
Qed.

(** ** Counting *)
Lemma count_occurrences c u : count_byte c u = occurrences c u.
Proof.
  unfold occurrences. induction u as [|x u IH]; auto. cbn.
  destruct (Ascii.eqb c x); cbn; now rewrite IH.
Qed.

Lemma occ_app c a b : occurrences c (a ++ b) = (occurrences c a + occurrences c b)%nat.
Proof. unfold occurrences. now rewrite filter_app, app_length. Qed.

Lemma occ_none c u : (forall x, In x u -> x <> c) -> occurrences c u = 0.
Proof.
  intros H. rewrite <- count_occurrences. apply count_byte_notin. intros I. now apply (H c I).
Qed.

Lemma occ_digits c u : Forall is_digit u -> ~ is_digit c -> occurrences c u = 0.
Proof. intros F N. apply occ_none. intros x I ->. rewrite Forall_forall in F. now apply F in I. Qed.

Lemma min_nd : ~ is_digit c_min. Proof. unfold is_digit, digit; cbn; lia. Qed.
Lemma dot_nd : ~ is_digit c_dot. Proof. unfold is_digit, digit; cbn; lia. Qed.

(** ** Numbers *)
Definition number_errs (u : str) : list err := sign_errs u ++ point_errs u.

Lemma number_token_eq u :
  u <> [] ->
  number_token u =
  match number_errs u with
  | (_ :: _) as e => GErr e
  | [] =>
      if Nat.eqb (occurrences c_dot u) 1 then
        match parse_float F64 u with
        | None => GErr [EFloatSyn]
        | Some d => match parse_float F32 u with
                    | Some f => GVal (PScal (SFlt F32 f))
                    | None => GVal (PScal (SFlt F64 d))
                    end
        end
      else if Nat.eqb (occurrences c_min u) 1 then
        match parse_int 64 u with None => GErr [EIntSyn] | Some z => GVal (PScal (narrow_signed z)) end
      else
        match parse_uint 64 u with None => GErr [EUintSyn] | Some z => GVal (PScal (narrow_unsigned z)) end
  end.
Proof.
  intros N. unfold number_token. rewrite !count_occurrences.
  assert (E : (match occurrences c_min u with
     | 0 => []
     | 1 => if has_prefix [c_min] u then [] else [ENegPos]
     | _ => [ENegCount]
     end) ++ (match occurrences c_dot u with 0 | 1 => [] | _ => [EDotCount] end) = number_errs u).
  { unfold number_errs, sign_errs, point_errs. f_equal. destruct u as [|c t]; [congruence|].
    rewrite has_prefix1, Ascii.eqb_sym. reflexivity. }
  rewrite E. destruct (number_errs u); reflexivity.
Qed.

Lemma fits_u k z : In k unsigned_types -> (fits true k z <-> (0 <= z <= 2 ^ width true k - 1)%Z).
Proof.
  intros I. unfold fits, is_signed.
  destruct I as [<-|[<-|[<-|[<-|[]]]]]; cbn [width]; intuition discriminate.
Qed.
Lemma fits_s k z : In k signed_types ->
  (fits true k z <-> (- 2 ^ (width true k - 1) <= z <= 2 ^ (width true k - 1) - 1)%Z).
Proof.
  intros I. unfold fits, is_signed.
  destruct I as [<-|[<-|[<-|[<-|[]]]]]; cbn [width]; intuition.
Qed.

Lemma narrow_unsigned_spec z k : narrowest unsigned_types z k -> narrow_unsigned z = SInt k z.
Proof.
  intros (I & F & M). apply fits_u in F; auto. unfold narrow_unsigned.
  assert (M8 : (0 <= z <= 255)%Z -> (width true k <= 8)%Z).
  { intros H. apply (M KUInt8); [now left | apply fits_u; [now left|exact H]]. }
  assert (M16 : (0 <= z <= 65535)%Z -> (width true k <= 16)%Z).
  { intros H. apply (M KUInt16); [right; now left | apply fits_u; [right; now left|exact H]]. }
  assert (M32 : (0 <= z <= 4294967295)%Z -> (width true k <= 32)%Z).
  { intros H. apply (M KUInt32); [right; right; now left | apply fits_u; [right; right; now left|exact H]]. }
  destruct (Z.leb_spec 0 z), (Z.leb_spec z 255), (Z.leb_spec 256 z), (Z.leb_spec z 65535),
    (Z.leb_spec 65536 z), (Z.leb_spec z 4294967295); cbn [andb];
  destruct I as [<-|[<-|[<-|[<-|[]]]]]; cbn [width] in *; try reflexivity; exfalso;
    try (specialize (M8 ltac:(lia))); try (specialize (M16 ltac:(lia))); try (specialize (M32 ltac:(lia))); lia.
Qed.

Lemma narrow_signed_spec z k : narrowest signed_types z k -> narrow_signed z = SInt k z.
Proof.
  intros (I & F & M). apply fits_s in F; auto. unfold narrow_signed.
  assert (M8 : (-128 <= z <= 127)%Z -> (width true k <= 8)%Z).
  { intros H. apply (M KInt8); [now left | apply fits_s; [now left|exact H]]. }
  assert (M16 : (-32768 <= z <= 32767)%Z -> (width true k <= 16)%Z).
  { intros H. apply (M KInt16); [right; now left | apply fits_s; [right; now left|exact H]]. }
  assert (M32 : (-2147483648 <= z <= 2147483647)%Z -> (width true k <= 32)%Z).
  { intros H. apply (M KInt32); [right; right; now left | apply fits_s; [right; right; now left|exact H]]. }
  destruct (Z.leb_spec (-128) z), (Z.leb_spec z 127), (Z.leb_spec (-32768) z), (Z.leb_spec z 32767),
    (Z.leb_spec (-2147483648) z), (Z.leb_spec z 2147483647); cbn [andb];
  destruct I as [<-|[<-|[<-|[<-|[]]]]]; cbn [width] in *; try reflexivity; exfalso;
    try (specialize (M8 ltac:(lia))); try (specialize (M16 ltac:(lia))); try (specialize (M32 ltac:(lia))); lia.
Qed.

(** ** Reading decimal fractions *)

Lemma digit_not c x : is_digit c -> ~ is_digit x -> Ascii.eqb c x = false.
Proof. intros H N. apply eqb_ne. intros ->. auto. Qed.

Lemma us_nd : ~ is_digit c_us. Proof. unfold is_digit, digit; cbn; lia. Qed.

Lemma read_mant_digits s : forall m fd dot dig us r,
  Forall is_digit s ->
  read_mant false m fd dot dig us (s ++ r)
  = read_mant false (m * 10 ^ Z.of_nat (length s) + decimal s)
      (if dot then fd + Z.of_nat (length s) else fd)%Z dot
      (dig || match s with [] => false | _ => true end) us r.
Proof.
  induction s as [|c s IH]; intros * F.
  - cbn [app length decimal]. rewrite orb_false_r. f_equal; [change (10 ^ Z.of_nat 0)%Z with 1%Z; lia|].
    destruct dot; lia.
  - inversion F as [|? ? Hc Hs]; subst. cbn [app read_mant].
    rewrite (digit_not c c_us), (digit_not c c_dot) by (auto using us_nd, dot_nd).
    unfold base_digit. rewrite digit_val_digit by auto. rewrite IH by auto.
    cbn [length decimal]. rewrite orb_true_r. f_equal.
    + rewrite Nat2Z.inj_succ, Z.pow_succ_r by lia. ring.
    + destruct dot; lia.
Qed.

Lemma read_exp_digits s : forall e us,
  Forall is_digit s -> (0 <= e)%Z -> (e * 10 ^ Z.of_nat (length s) + decimal s < 10000)%Z ->
  read_exp e us s = ((e * 10 ^ Z.of_nat (length s) + decimal s)%Z, us, []).
Proof.
  induction s as [|c s IH]; intros e us F E L.
  - cbn. do 2 f_equal. lia.
  - inversion F as [|? ? Hc Hs]; subst. cbn [read_exp].
    rewrite (digit_not c c_us) by (auto using us_nd). rewrite digit_val_digit by auto.
    cbn [length decimal] in *. rewrite Nat2Z.inj_succ, Z.pow_succ_r in * by lia.
    pose proof (decimal_nonneg s Hs) as D0.
    pose proof (Z.pow_pos_nonneg 10 (Z.of_nat (length s)) ltac:(lia) ltac:(lia)) as P.
    destruct Hc as [Hc1 Hc2].
    destruct (Z.ltb_spec e 10000); [|nia].
    rewrite IH; auto; try nia. do 2 f_equal. ring.
Qed.

Lemma lower_digit c : is_digit c -> lower c = c.
Proof.
  unfold is_digit, digit, lower. intros H.
  destruct (N.leb_spec 65 (N_of_ascii c)), (N.leb_spec (N_of_ascii c) 90); cbn [andb]; auto. lia.
Qed.

Lemma syn_dot s : In c_dot s -> parse_float_syn s =
  match s with
  | [] => None
  | c :: t => if Ascii.eqb c c_plus then read_number false t
              else if Ascii.eqb c c_min then read_number true t
              else read_number false s
  end.
Proof.
  intros I. unfold parse_float_syn.
  assert (J : In c_dot (lower_str s)).
  { unfold lower_str. apply in_map_iff. exists c_dot. split; [reflexivity|auto]. }
  assert (W : forall w, ~ In c_dot w -> str_eqb (lower_str s) w = false).
  { intros w N. apply str_eqb_neq. intros E. rewrite E in J. auto. }
  rewrite !W; [reflexivity|..]; intros K; cbn in K; intuition discriminate.
Qed.

(** The number starts neither with a sign nor with a base prefix. *)
Lemma read_number_decimal neg (s : str) :
  (forall a b t, s = a :: b :: t -> lower b <> "x"%char) ->
  read_number neg s =
  let '(m, fd, dot, dig, us, rest) := read_mant false 0 0 false false false s in
  if negb dig then None
  else
    let fin (e : Z) (us' : bool) :=
      if us' && negb (underscore_ok false SawStart s) then None
      else let '(n, d) := pow_rat m 10 (e - fd) in Some (SynNum neg n d) in
    match rest with
    | [] => fin 0%Z us
    | c :: t =>
        if Ascii.eqb (lower c) "e"%char then
          let '(eneg, t') :=
            match t with
            | x :: t2 => if Ascii.eqb x c_plus then (false, t2)
                         else if Ascii.eqb x c_min then (true, t2) else (false, t)
            | [] => (false, t)
            end in
          match t' with
          | x :: _ =>
              match digit_val x with
              | None => None
              | Some _ =>
                  let '(e, us', rest') := read_exp 0 us t' in
                  match rest' with
                  | [] => fin (if eneg then - e else e)%Z us'
                  | _ => None
                  end
              end
          | [] => None
          end
        else None
    end.
Proof.
  intros H. unfold read_number.
  assert (match s with
    | a :: b :: _ :: _ =>
        if Ascii.eqb a "0"%char && Ascii.eqb (lower b) "x"%char
        then (true, tl (tl s)) else (false, s)
    | _ => (false, s)
    end = (false, s)) as ->; [|reflexivity].
  destruct s as [|a [|b [|c t]]]; auto. rewrite (eqb_ne _ _ (H a b (c :: t) eq_refl)), andb_false_r. reflexivity.
Qed.

Lemma pow_rat_frac m e fd : (0 <= e)%Z -> (0 <= fd)%Z ->
  let '(n, d) := pow_rat m 10 (e - fd) in
  (0 < d /\ n * 10 ^ fd = m * 10 ^ e * d)%Z /\ (0 <= m -> 0 <= n)%Z.
Proof.
  intros E F. unfold pow_rat. destruct (Z.leb_spec 0 (e - fd)).
  - split; [split; [lia|]|].
    + replace (10 ^ e)%Z with (10 ^ (e - fd) * 10 ^ fd)%Z by (rewrite <- Z.pow_add_r by lia; f_equal; lia). ring.
    + intros. pose proof (Z.pow_nonneg 10 (e - fd)). nia.
  - split; [split; [apply Z.pow_pos_nonneg; lia|]|].
    + replace (10 ^ fd)%Z with (10 ^ e * 10 ^ (- (e - fd)))%Z by (rewrite <- Z.pow_add_r by lia; f_equal; lia). ring.
    + auto.
Qed.

Lemma lower_e c : c = "e"%char \/ c = "E"%char -> Ascii.eqb (lower c) "e"%char = true.
Proof. intros [->| ->]; reflexivity. Qed.

Lemma e_nd c : c = "e"%char \/ c = "E"%char -> digit_val c = None /\ Ascii.eqb c c_us = false /\ Ascii.eqb c c_dot = false.
Proof. intros [->| ->]; repeat split. Qed.

Lemma fraction_heads u n d : fraction u n d ->
  In c_dot u /\ (forall a b t, u = a :: b :: t -> lower b <> "x"%char)
  /\ (exists c t, u = c :: t /\ Ascii.eqb c c_plus = false /\ Ascii.eqb c c_min = false).
Proof.
  intros (i & f & x & e & -> & Fi & Ff & Ne & Ex & _ & _).
  split; [apply in_or_app; right; now left|]. split.
  - intros a b t E. 
    assert (D : forall c, is_digit c -> lower c <> "x"%char).
    { intros c Hc. rewrite lower_digit by auto. intros ->. unfold is_digit, digit in Hc. cbn in Hc. lia. }
    destruct i as [|i0 i]; cbn in E; inversion E as [[E1 E2]].
    + destruct f as [|f0 f]; [cbn in Ne; congruence|]. cbn in E2. inversion E2; subst.
      apply D. now inversion Ff.
    + destruct i as [|i1 i]; cbn in E2; inversion E2; subst; [discriminate|].
      apply D. inversion Fi as [|? ? ? Fi']. now inversion Fi'.
  - destruct i as [|i0 i]; [eexists _, _; split; [reflexivity|]; split; reflexivity|].
    inversion Fi; subst. eexists _, _. split; [reflexivity|]. split; apply digit_not; auto using min_nd.
Qed.

Lemma read_fraction neg u n d : fraction u n d ->
  exists n' d', read_number neg u = Some (SynNum neg n' d') /\ (0 <= n /\ 0 < d /\ 0 <= n' /\ 0 < d' /\ n' * d = n * d')%Z.
Proof.
  intros Fr. destruct (fraction_heads u n d Fr) as (_ & Hx & _).
  rewrite read_number_decimal by auto. clear Hx.
  destruct Fr as (i & f & x & e & -> & Fi & Ff & Ne & Ex & -> & ->).
  rewrite (read_mant_digits i) by auto. cbn [read_mant].
  change (Ascii.eqb "."%char c_us) with false. change (Ascii.eqb "."%char c_dot) with true. cbn iota.
  rewrite (read_mant_digits f) by auto.
  set (m := (0 * 10 ^ Z.of_nat (length i) + decimal i)%Z).
  assert (Em : (m * 10 ^ Z.of_nat (length f) + decimal f)%Z = decimal (i ++ f)).
  { rewrite decimal_app. unfold m. ring. }
  rewrite Em. change (0 + Z.of_nat (length f))%Z with (Z.of_nat (length f)).
  replace (((false || match i with [] => false | _ :: _ => true end) || match f with [] => false | _ :: _ => true end))%bool
    with true.
  2: { destruct i, f; auto. cbn in Ne. congruence. }
  assert (M0 : (0 <= decimal (i ++ f))%Z) by (apply decimal_nonneg, Forall_app; auto).
  assert (P10 : forall z, (0 <= z)%Z -> (0 < 10 ^ z)%Z) by (intros; apply Z.pow_pos_nonneg; lia).
  destruct Ex as [[-> ->]|(c & p & ds & -> & Hc & Hp & Hn & He)].
  - cbn [read_mant negb].
    pose proof (pow_rat_frac (decimal (i ++ f)) 0 (Z.of_nat (length f)) ltac:(lia) ltac:(lia)) as PR.
    cbn [andb]. destruct (pow_rat _ 10 (0 - _)) as [n' d']. destruct PR as [[Dp Eq] Np].
    exists n', d'. split; [reflexivity|]. change (10 ^ 0)%Z with 1%Z in *. specialize (P10 (Z.of_nat (length f)) ltac:(lia)). lia.
  - destruct (e_nd c Hc) as (E1 & E2 & E3). cbn [read_mant]. rewrite E2, E3. unfold base_digit at 1. rewrite E1.
    cbn [negb]. rewrite (lower_e c Hc).
    destruct Hn as (Dn & Fd & Dv).
    assert (match p ++ ds with
            | x :: t2 => if Ascii.eqb x c_plus then (false, t2)
                         else if Ascii.eqb x c_min then (true, t2) else (false, p ++ ds)
            | [] => (false, p ++ ds)
            end = (false, ds)) as ->.
    { destruct Hp as [->| ->]; [|reflexivity]. cbn [app]. destruct ds as [|d0 ds]; auto.
      inversion Fd; subst. rewrite !digit_not; auto using min_nd. }
    destruct ds as [|d0 ds]; [congruence|].
    inversion Fd as [|? ? Hd0 Fd']; subst. rewrite digit_val_digit by auto.
    rewrite read_exp_digits; [|exact Fd|lia|rewrite Z.mul_0_l; exact He].
    rewrite Z.mul_0_l, Z.add_0_l. cbn [andb].
    assert (E0 : (0 <= decimal (d0 :: ds))%Z) by (apply decimal_nonneg; auto).
    pose proof (pow_rat_frac (decimal (i ++ f)) (decimal (d0 :: ds)) (Z.of_nat (length f)) E0 ltac:(lia)) as PR.
    destruct (pow_rat _ 10 _) as [n' d']. destruct PR as [[Dp Eq] Np].
    exists n', d'. split; [reflexivity|].
    pose proof (P10 (Z.of_nat (length f)) ltac:(lia)). pose proof (P10 _ E0).
    repeat split; try lia; nia.
Qed.

Lemma parse_fraction k neg u n d f : fraction u n d -> rounds_to k neg n d f -> parse_float k (sign neg ++ u) = f.
Proof.
  intros Fr R. destruct (fraction_heads u n d Fr) as (I & _ & c & t & Eu & C1 & C2).
  destruct (read_fraction neg u n d Fr) as (n' & d' & Rn & N & D & N' & D' & Q).
  assert (Syn : parse_float_syn (sign neg ++ u) = Some (SynNum neg n' d')).
  { rewrite syn_dot by (apply in_or_app; now right). destruct neg; cbn [sign app].
    - exact Rn.
    - rewrite Eu in *. rewrite C1, C2. exact Rn. }
  unfold parse_float. rewrite Syn. fold (round_opt k neg n' d').
  apply (rounds_to_fun k neg n d); auto.
  apply (rounds_to_ratio k neg n' d'); auto. now apply rounds_to_round.
Qed.

Lemma fraction_marks neg u n d : fraction u n d ->
  number_errs (sign neg ++ u) = [] /\ occurrences c_dot (sign neg ++ u) = 1 /\ sign neg ++ u <> [].
Proof.
  intros (i & f & x & e & -> & Fi & Ff & Ne & Ex & _ & _).
  assert (Ox : occurrences c_min x = 0 /\ occurrences c_dot x = 0).
  { destruct Ex as [[-> _]|(c & p & ds & -> & Hc & Hp & (_ & Fd & _) & _)]; [split; reflexivity|].
    change (c :: p ++ ds) with ([c] ++ p ++ ds). rewrite !occ_app.
    rewrite !(occ_digits _ ds) by auto using min_nd, dot_nd.
    destruct Hc as [->| ->], Hp as [->| ->]; split; reflexivity. }
  destruct Ox as [Ox1 Ox2].
  assert (Om : occurrences c_min (i ++ "."%char :: f ++ x) = 0).
  { change ("."%char :: f ++ x) with (["."%char] ++ f ++ x). rewrite !occ_app, Ox1.
    rewrite (occ_digits _ i), (occ_digits _ f) by auto using min_nd. reflexivity. }
  assert (Od : occurrences c_dot (i ++ "."%char :: f ++ x) = 1).
  { change ("."%char :: f ++ x) with (["."%char] ++ f ++ x). rewrite !occ_app, Ox2.
    rewrite (occ_digits _ i), (occ_digits _ f) by auto using dot_nd. reflexivity. }
  assert (Un : i ++ "."%char :: f ++ x <> []) by (destruct i; discriminate).
  remember (i ++ "."%char :: f ++ x) as u eqn:Eu. clear Eu.
  unfold number_errs, sign_errs, point_errs. change "-"%char with c_min. change "."%char with c_dot in *.
  rewrite !occ_app, Om, Od. destruct neg; cbn [sign]; repeat split.
  - discriminate.
  - exact Un.
Qed.

(** ** Malformed fractions *)
Lemma read_mant_nodigit hex s : forall m fd dot us,
  Forall (fun c => base_digit hex c = None) s ->
  snd (fst (fst (read_mant hex m fd dot false us s))) = false.
Proof.
  induction s as [|c s IH]; intros * F; auto. inversion F; subst. cbn [read_mant].
  destruct (Ascii.eqb c c_us); [apply IH; auto|].
  destruct (Ascii.eqb c c_dot); [destruct dot; [reflexivity | apply IH; auto]|].
  rewrite H1. reflexivity.
Qed.

(** What is read are bytes of numbers. *)
Lemma read_mant_bytes hex s : forall m fd dot dig us,
  exists p, s = p ++ snd (read_mant hex m fd dot dig us s)
            /\ Forall (fun c => c = c_us \/ c = c_dot \/ base_digit hex c <> None) p.
Proof.
  induction s as [|c s IH]; intros *; [exists []; auto|]. cbn [read_mant].
  destruct (Ascii.eqb_spec c c_us) as [->|N1].
  { destruct (IH m fd dot dig true) as (p & E & F). exists (c_us :: p). cbn [app]. split; [now f_equal|auto]. }
  destruct (Ascii.eqb_spec c c_dot) as [->|N2].
  { destruct dot; [exists []; auto|].
    destruct (IH m fd true dig us) as (p & E & F). exists (c_dot :: p). cbn [app]. split; [now f_equal|auto]. }
  destruct (base_digit hex c) as [x|] eqn:B; [|exists []; auto].
  destruct (IH (m * (if hex then 16 else 10) + x)%Z (if dot then fd + 1 else fd)%Z dot true us) as (p & E & F).
  exists (c :: p). cbn [app]. split; [now f_equal|]. constructor; auto. right; right. congruence.
Qed.

Lemma read_exp_bytes s : forall e us,
  exists p, s = p ++ snd (read_exp e us s) /\ Forall (fun c => c = c_us \/ is_digit c) p.
Proof.
  induction s as [|c s IH]; intros *; [exists []; auto|]. cbn [read_exp].
  destruct (Ascii.eqb_spec c c_us) as [->|N1].
  { destruct (IH e true) as (p & E & F). exists (c_us :: p). cbn [app]. split; [now f_equal|auto]. }
  pose proof (digit_val_spec c) as D. destruct (digit_val c) as [x|]; [|exists []; auto].
  destruct (IH (if (e <? 10000)%Z then (e * 10 + x)%Z else e) us) as (p & E & F). exists (c :: p). cbn [app].
  split; [now f_equal|]. constructor; auto. tauto.
Qed.

Lemma digit_list c : is_digit c -> In c (lit "0123456789").
Proof.
  unfold is_digit, digit. intros H.
  assert (N_of_ascii c = 48 \/ N_of_ascii c = 49 \/ N_of_ascii c = 50 \/ N_of_ascii c = 51 \/ N_of_ascii c = 52
    \/ N_of_ascii c = 53 \/ N_of_ascii c = 54 \/ N_of_ascii c = 55 \/ N_of_ascii c = 56 \/ N_of_ascii c = 57)%N as G by lia.
  rewrite <- (ascii_N_embedding c).
  repeat (destruct G as [G|G]; [rewrite G; cbn; tauto|]). rewrite G; cbn; tauto.
Qed.

Lemma digit_number c : is_digit c -> number_byte c.
Proof.
  intros H. apply digit_list in H. unfold number_byte. cbn in *. intuition (subst; auto 12).
Qed.

Lemma hex_number c : hex_val c <> None -> number_byte c.
Proof.
  unfold hex_val. pose proof (digit_val_spec c) as D. destruct (digit_val c).
  - intros _. now apply digit_number.
  - unfold lower. intros H.
    remember (N_of_ascii c) as n eqn:En.
    assert (G : (97 <= n <= 102 \/ 65 <= n <= 70)%N).
    { destruct (N.leb_spec 65 n), (N.leb_spec n 90); cbn [andb] in H.
      - assert (n < 256)%N by lia. rewrite N_ascii_embedding in H by lia.
        destruct (Z.leb_spec 97 (Z.of_N (n + 32))), (Z.leb_spec (Z.of_N (n + 32)) 102); cbn in H; try congruence. lia.
      - rewrite <- En in H. destruct (Z.leb_spec 97 (Z.of_N n)), (Z.leb_spec (Z.of_N n) 102); cbn in H; try congruence. lia.
      - rewrite <- En in H. destruct (Z.leb_spec 97 (Z.of_N n)), (Z.leb_spec (Z.of_N n) 102); cbn in H; try congruence. lia.
      - rewrite <- En in H. destruct (Z.leb_spec 97 (Z.of_N n)), (Z.leb_spec (Z.of_N n) 102); cbn in H; try congruence. lia. }
    rewrite <- (ascii_N_embedding c), <- En. clear -G.
    assert (n = 97 \/ n = 98 \/ n = 99 \/ n = 100 \/ n = 101 \/ n = 102 \/ n = 65 \/ n = 66 \/ n = 67 \/ n = 68 \/ n = 69 \/ n = 70)%N as H by lia.
    unfold number_byte.
    repeat (destruct H as [H|H]; [rewrite H; cbn; auto 40|]). rewrite H; cbn; auto 40.
Qed.

Lemma base_number hex c : base_digit hex c <> None -> number_byte c.
Proof.
  destruct hex; cbn [base_digit]; [apply hex_number|].
  pose proof (digit_val_spec c) as D. destruct (digit_val c); [|congruence]. intros _. now apply digit_number.
Qed.

Lemma nb_lit c : In c (lit "._+-eExXpP0") -> number_byte c.
Proof. unfold number_byte. cbn. intuition (subst; auto 40). Qed.

Lemma mant_number hex p : Forall (fun c => c = c_us \/ c = c_dot \/ base_digit hex c <> None) p -> Forall number_byte p.
Proof.
  apply Forall_impl. intros c [->|[->|H]]; [apply nb_lit; cbn; tauto..|now apply base_number in H].
Qed.

Lemma lower_p c x : x = "e"%char \/ x = "p"%char \/ x = "x"%char -> lower c = x -> number_byte c.
Proof.
  intros Hx E. unfold lower in E.
  destruct (N.leb_spec 65 (N_of_ascii c)), (N.leb_spec (N_of_ascii c) 90); cbn [andb] in E.
  - apply (f_equal N_of_ascii) in E. rewrite N_ascii_embedding in E by lia.
    rewrite <- (ascii_N_embedding c).
    assert (N_of_ascii c = 69 \/ N_of_ascii c = 80 \/ N_of_ascii c = 88)%N as G.
    { destruct Hx as [->|[->| ->]]; cbn in E; lia. }
    destruct G as [->|[->| ->]]; apply nb_lit; cbn; tauto.
  - subst. destruct Hx as [->|[->| ->]]; apply nb_lit; cbn; tauto.
  - subst. destruct Hx as [->|[->| ->]]; apply nb_lit; cbn; tauto.
  - subst. destruct Hx as [->|[->| ->]]; apply nb_lit; cbn; tauto.
Qed.

Lemma read_number_bytes neg (s : str) r : read_number neg s = Some r -> Forall number_byte s.
Proof.
  unfold read_number. intros H.
  assert (G : forall body, Forall number_byte body -> (s = body \/ exists a b, s = a :: b :: body /\ number_byte a /\ number_byte b) -> Forall number_byte s).
  { intros body F [->|(a & b & -> & A & B)]; auto. }
  set (hb := match s with
    | a :: b :: _ :: _ =>
        if Ascii.eqb a "0"%char && Ascii.eqb (lower b) "x"%char
        then (true, tl (tl s)) else (false, s)
    | _ => (false, s)
    end) in H.
  assert (Hb : s = snd hb \/ exists a b, s = a :: b :: snd hb /\ number_byte a /\ number_byte b).
  { subst hb. destruct s as [|a [|b [|c t]]]; auto.
    destruct (Ascii.eqb_spec a "0"%char) as [->|]; cbn [andb]; auto.
    destruct (Ascii.eqb_spec (lower b) "x"%char) as [E|]; cbn [snd tl]; auto.
    right. exists "0"%char, b. split; auto. split; [apply nb_lit; cbn; tauto|]. eapply lower_p; eauto. }
  destruct hb as [hex body]. cbn [snd] in Hb. apply (G body); auto. clear G Hb.
  destruct (read_mant_bytes hex body 0 0 false false false) as (p & E & F).
  destruct (read_mant hex 0 0 false false false body) as [[[[[m fd] dot] dig] us] rest]. cbn [snd] in E.
  rewrite E. apply Forall_app. split; [now apply mant_number in F|].
  destruct (negb dig); [discriminate|]. destruct rest as [|c t]; [constructor|].
  destruct (Ascii.eqb_spec (lower c) (if hex then "p"%char else "e"%char)) as [Ec|]; [|discriminate].
  constructor.
  { eapply lower_p; [|exact Ec]. destruct hex; auto. }
  set (et := match t with
            | x :: t2 => if Ascii.eqb x c_plus then (false, t2)
                         else if Ascii.eqb x c_min then (true, t2) else (false, t)
            | [] => (false, t)
            end) in H.
  assert (Ht : t = snd et \/ exists x, t = x :: snd et /\ number_byte x).
  { subst et. destruct t as [|x t2]; auto.
    destruct (Ascii.eqb_spec x c_plus) as [->|]; [right; exists c_plus; split; [auto|apply nb_lit; cbn; tauto]|].
    destruct (Ascii.eqb_spec x c_min) as [->|]; [right; exists c_min; split; [auto|apply nb_lit; cbn; tauto]|auto]. }
  destruct et as [eneg t']. cbn [snd] in Ht.
  assert (Ft : Forall number_byte t').
  { destruct t' as [|x t2]; [constructor|]. destruct (digit_val x); [|discriminate].
    destruct (read_exp_bytes (x :: t2) 0 us) as (p' & E' & F').
    destruct (read_exp 0 us (x :: t2)) as [[e us'] rest']. cbn [snd] in E'.
    destruct rest'; [|discriminate]. rewrite E', app_nil_r.
    eapply Forall_impl; [|apply F']. intros y [->|Hy]; [apply nb_lit; cbn; tauto|now apply digit_number]. }
  destruct Ht as [->|(x & -> & Hx)]; auto.
Qed.

Lemma read_number_nodigit neg (s : str) : Forall (fun c => ~ is_digit c) s -> read_number neg s = None.
Proof.
  intros F. 
  assert (Forall (fun c => base_digit false c = None) s) as F'.
  { eapply Forall_impl; [|apply F]. intros c H. cbn. now apply digit_val_ndigit. }
  unfold read_number.
  assert (match s with
    | a :: b :: _ :: _ =>
        if Ascii.eqb a "0"%char && Ascii.eqb (lower b) "x"%char
        then (true, tl (tl s)) else (false, s)
    | _ => (false, s)
    end = (false, s)) as ->.
  { destruct s as [|a [|b [|c t]]]; auto. inversion F; subst.
    destruct (Ascii.eqb_spec a "0"%char) as [->|]; cbn [andb]; auto. exfalso. apply H1.
    unfold is_digit, digit; cbn; lia. }
  pose proof (read_mant_nodigit false s 0 0 false false F') as E.
  destruct (read_mant false 0 0 false false false s) as [[[[[m fd] dot] dig] us] rest]. cbn in E. subst. reflexivity.
Qed.

Lemma not_float k u :
  In c_dot u -> (~ Forall number_byte u \/ Forall (fun c => ~ is_digit c) u) -> parse_float k u = None.
Proof.
  intros I H. unfold parse_float. rewrite syn_dot by auto. destruct u as [|c t]; [destruct I|].
  assert (R : forall neg s, s = t /\ number_byte c \/ s = c :: t -> read_number neg s = None).
  { intros neg s Hs. destruct H as [H|H].
    - destruct (read_number neg s) eqn:E; auto. exfalso. apply H. apply read_number_bytes in E.
      destruct Hs as [[-> Hc]| ->]; auto.
    - apply read_number_nodigit. destruct Hs as [[-> _]| ->]; auto. now inversion H. }
  destruct (Ascii.eqb_spec c c_plus) as [->|].
  { rewrite R; auto. left. split; auto. apply nb_lit; cbn; tauto. }
  destruct (Ascii.eqb_spec c c_min) as [->|].
  { rewrite R; auto. left. split; auto. apply nb_lit; cbn; tauto. }
  rewrite R; auto.
Qed.

Lemma occ_In c u : (0 < occurrences c u)%nat -> In c u.
Proof.
  unfold occurrences. destruct (filter (Ascii.eqb c) u) as [|x l] eqn:E; cbn; [lia|]. intros _.
  assert (In x (filter (Ascii.eqb c) u)) by (rewrite E; now left). apply filter_In in H as [H1 H2].
  apply Ascii.eqb_eq in H2. now subst.
Qed.

(** ** All scalars *)

Definition tok_of (g : gres payload) : tokres :=
  match g with
  | GVal p => match doc_of p with Some d => TokDoc d | None => TokNone end
  | GErr e => TokErr e
  end.

Definition scalar_of (u : str) : gres payload :=
  if str_eqb u (lit "true") then GVal (PScal (SBool true))
  else if str_eqb u (lit "false") then GVal (PScal (SBool false))
  else if str_eqb u (lit "null") then GVal PNull
  else if str_eqb u [] then GVal PEmpty
  else number_token u.

Lemma scalar_of_number u : u <> [] -> ~ keyword u -> scalar_of u = number_token u.
Proof.
  intros N K. unfold scalar_of, keyword in *.
  destruct (str_eqb_spec u (lit "true")); [tauto|]. destruct (str_eqb_spec u (lit "false")); [tauto|].
  destruct (str_eqb_spec u (lit "null")); [tauto|]. destruct (str_eqb_spec u []); [tauto|]. reflexivity.
Qed.

Lemma digits_not_keyword u : Forall is_digit u -> ~ keyword u.
Proof.
  intros F K. unfold keyword in K.
  destruct K as [->|[->| ->]]; inversion F as [|? ? H _]; unfold is_digit, digit in H; cbn in H; lia.
Qed.

Lemma min_not_keyword u : ~ keyword (c_min :: u).
Proof. intros [H|[H|H]]; discriminate. Qed.

Lemma dot_not_keyword u : In c_dot u -> ~ keyword u.
Proof. intros I [->|[->| ->]]; cbn in I; intuition discriminate. Qed.

Lemma keyword_errs u : number_errs u <> [] -> u <> [] /\ ~ keyword u.
Proof.
  intros H. split; [intros ->; apply H; reflexivity|].
  intros [->|[->| ->]]; apply H; reflexivity.
Qed.

Lemma no_errs u : occurrences c_min u = 0 -> occurrences c_dot u = 0 -> number_errs u = [].
Proof.
  intros A B. unfold number_errs, sign_errs, point_errs. change "-"%char with c_min. change "."%char with c_dot.
  now rewrite A, B.
Qed.

Lemma no_errs_min u : occurrences c_min u = 0 -> occurrences c_dot u = 0 ->
  number_errs (c_min :: u) = [] /\ occurrences c_min (c_min :: u) = 1 /\ occurrences c_dot (c_min :: u) = 0.
Proof.
  intros A B. unfold number_errs, sign_errs, point_errs. change "-"%char with c_min. change "."%char with c_dot.
  change (c_min :: u) with ([c_min] ++ u). rewrite !occ_app, A, B. repeat split.
Qed.

Lemma lexeme_scalar u r : lexeme u r -> tok_of (scalar_of u) = r.
Proof.
  intros H. destruct H as
    [ | | | | u z k N R | u z N B | u z k N R | u z N B | neg u n d f Fr R | neg u n d f Fr R32 R
    | neg u n d Fr R | u E | u Ne K Om Od Nd | u Om Od Nd | u Se Od Bd ]; try reflexivity.
  - (* natural *)
    pose proof N as (Ne & Fd & _). rewrite scalar_of_number by auto using digits_not_keyword.
    assert (Om : occurrences c_min u = 0) by auto using occ_digits, min_nd.
    assert (Od : occurrences c_dot u = 0) by auto using occ_digits, dot_nd.
    rewrite number_token_eq by auto. rewrite no_errs, Om, Od by auto. cbn [Nat.eqb].
    assert (parse_uint 64 u = Some z) as ->.
    { apply parse_uint_iff. split; auto. destruct R as (I & F & _). apply fits_u in F; auto.
      destruct I as [<-|[<-|[<-|[<-|[]]]]]; cbn [width] in F; lia. }
    now rewrite (narrow_unsigned_spec z k R).
  - pose proof N as (Ne & Fd & _). rewrite scalar_of_number by auto using digits_not_keyword.
    assert (Om : occurrences c_min u = 0) by auto using occ_digits, min_nd.
    assert (Od : occurrences c_dot u = 0) by auto using occ_digits, dot_nd.
    rewrite number_token_eq by auto. rewrite no_errs, Om, Od by auto. cbn [Nat.eqb].
    destruct (parse_uint 64 u) as [z'|] eqn:P; auto. apply parse_uint_iff in P as [P1 P2].
    pose proof (numeral_fun _ _ _ N P1). lia.
  - pose proof N as (Ne & Fd & _). change "-"%char with c_min.
    rewrite scalar_of_number by (auto using min_not_keyword; discriminate).
    assert (Om : occurrences c_min u = 0) by auto using occ_digits, min_nd.
    assert (Od : occurrences c_dot u = 0) by auto using occ_digits, dot_nd.
    destruct (no_errs_min u Om Od) as (E1 & E2 & E3).
    rewrite number_token_eq by discriminate. rewrite E1, E2, E3. cbn [Nat.eqb].
    assert (parse_int 64 (c_min :: u) = Some (- z)%Z) as ->.
    { apply parse_int_iff; [lia|]. split.
      - right; right. exists u. split; auto. now rewrite Z.opp_involutive.
      - destruct R as (I & F & _). apply fits_s in F; auto.
        destruct I as [<-|[<-|[<-|[<-|[]]]]]; cbn [width] in F; lia. }
    now rewrite (narrow_signed_spec _ k R).
  - pose proof N as (Ne & Fd & _). change "-"%char with c_min.
    rewrite scalar_of_number by (auto using min_not_keyword; discriminate).
    assert (Om : occurrences c_min u = 0) by auto using occ_digits, min_nd.
    assert (Od : occurrences c_dot u = 0) by auto using occ_digits, dot_nd.
    destruct (no_errs_min u Om Od) as (E1 & E2 & E3).
    rewrite number_token_eq by discriminate. rewrite E1, E2, E3. cbn [Nat.eqb].
    destruct (parse_int 64 (c_min :: u)) as [z'|] eqn:P; auto. apply parse_int_iff in P as [P1 P2]; [|lia].
    destruct P1 as [(_ & P & _)|[(t & P & _)|(t & P & Pn)]].
    + inversion P as [|? ? Hm _]. now apply min_nd in Hm.
    + discriminate.
    + inversion P; subst. pose proof (numeral_fun _ _ _ N Pn). lia.
  - destruct (fraction_marks neg u n d Fr) as (E1 & E2 & E3).
    assert (I : In c_dot (sign neg ++ u)) by (apply occ_In; lia).
    rewrite scalar_of_number by auto using dot_not_keyword. rewrite number_token_eq by auto.
    rewrite E1, E2. cbn [Nat.eqb]. rewrite (parse_fraction F32 neg u n d _ Fr R).
    destruct (parse_float F64 (sign neg ++ u)) eqn:P64; auto. exfalso.
    (* a number in range of float32 is in range of float64 *)
    destruct (read_fraction neg u n d Fr) as (_ & _ & _ & N & D & _).
    pose proof (rounds_to_round F64 neg n d N D) as R64.
    rewrite (parse_fraction F64 neg u n d _ Fr R64) in P64.
    destruct R64 as [[O _]|(_ & m & e & Q & _)]; [|congruence].
    destruct R as [[_ O32]|(O32 & _)]; [discriminate|]. apply O32.
    unfold overflows in *. eapply Z.le_trans; [|exact O].
    apply Z.mul_le_mono_nonneg_r; [lia|]. cbv; congruence.
  - destruct (fraction_marks neg u n d Fr) as (E1 & E2 & E3).
    assert (I : In c_dot (sign neg ++ u)) by (apply occ_In; lia).
    rewrite scalar_of_number by auto using dot_not_keyword. rewrite number_token_eq by auto.
    rewrite E1, E2. cbn [Nat.eqb]. rewrite (parse_fraction F32 neg u n d _ Fr R32), (parse_fraction F64 neg u n d _ Fr R).
    reflexivity.
  - destruct (fraction_marks neg u n d Fr) as (E1 & E2 & E3).
    assert (I : In c_dot (sign neg ++ u)) by (apply occ_In; lia).
    rewrite scalar_of_number by auto using dot_not_keyword. rewrite number_token_eq by auto.
    rewrite E1, E2. cbn [Nat.eqb]. rewrite (parse_fraction F64 neg u n d _ Fr R). reflexivity.
  - fold (number_errs u) in *. destruct (keyword_errs u E) as [Ne K]. rewrite scalar_of_number by auto.
    rewrite number_token_eq by auto. destruct (number_errs u); [congruence|reflexivity].
  - rewrite scalar_of_number by auto. rewrite number_token_eq by auto.
    change "-"%char with c_min in *. change "."%char with c_dot in *.
    rewrite no_errs, Om, Od by auto. cbn [Nat.eqb].
    destruct (parse_uint 64 u) as [z|] eqn:P; auto. apply parse_uint_iff in P as [(_ & P & _) _]. tauto.
  - change "-"%char with c_min in *. change "."%char with c_dot in *.
    rewrite scalar_of_number by (auto using min_not_keyword; discriminate).
    destruct (no_errs_min u Om Od) as (E1 & E2 & E3).
    rewrite number_token_eq by discriminate. rewrite E1, E2, E3. cbn [Nat.eqb].
    destruct (parse_int 64 (c_min :: u)) as [z'|] eqn:P; auto. apply parse_int_iff in P as [P1 P2]; [|lia].
    exfalso. destruct P1 as [(_ & P & _)|[(t & P & _)|(t & P & (Pe & Pn & _))]].
    + inversion P as [|? ? Hm _]. now apply min_nd in Hm.
    + discriminate.
    + inversion P; subst. tauto.
  - change "."%char with c_dot in *. assert (I : In c_dot u) by (apply occ_In; lia).
    rewrite scalar_of_number; [|intros ->; destruct I|now apply dot_not_keyword].
    rewrite number_token_eq by (intros ->; destruct I).
    assert (number_errs u = []) as ->.
    { unfold number_errs, point_errs. change "."%char with c_dot. now rewrite Se, Od. }
    rewrite Od. cbn [Nat.eqb]. rewrite not_float by auto. reflexivity.
Qed.

Theorem token_means_model t r : token_means t r ->
  forall post, blanks post -> tok_model (latin1 (t ++ post)) = r.
Proof.
  intros [P L] post B. assert (Pp : Forall plain (t ++ post)).
  { apply Forall_app. split; [exact P|]. eapply Forall_impl; [|apply B]. intros c H. now left. }
  rewrite latin1_utf8, utf8_str_ascii by (eapply Forall_impl; [apply plain_lo|auto]).
  unfold tok_model, scalar_token. rewrite clean_plain by auto. rewrite squeeze_app, (squeeze_blanks post B), app_nil_r.
  apply lexeme_scalar in L. exact L.
Qed.
