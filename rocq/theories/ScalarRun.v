(** * Every unquoted scalar: numbers with a point, totality *)
From Coq Require Import Ascii String List NArith ZArith Bool Lia.
From Verif Require Import GoStr GoNum GoFloat Heap Common ValueModel ArrayModel MapModel ParserModel
  StrLemmas SpecDict SpecNum NumLemmas SpecFloat FloatFacts SpecDoc SpecText SpecToken TreeParser TextRun TokenFacts SpecScalar ScalarFacts.
Import ListNotations.

(** ** The exponent *)

Definition exp_of (hex us : bool) (rest : str) : option (Z * bool) :=
  match rest with
  | [] => if hex then None else Some (0%Z, us)
  | c :: t =>
      if Ascii.eqb (lower c) (if hex then "p"%char else "e"%char) then
        let '(eneg, t') :=
          match t with
          | x :: t2 => if Ascii.eqb x c_plus then (false, t2)
                       else if Ascii.eqb x c_min then (true, t2) else (false, t)
          | [] => (false, t)
          end in
        match t' with
        | x :: _ =>
            match digit_val x with
            | None => None
            | Some _ =>
                let '(e, us', rest') := read_exp 0 us t' in
                match rest' with
                | [] => Some ((if eneg then - e else e)%Z, us')
                | _ => None
                end
            end
        | [] => None
        end
      else None
  end.

Definition read_rest (hex neg : bool) (body : str) : option fsyn :=
  let '(m, fd, dot, dig, us, rest) := read_mant hex 0 0 false false false body in
  if negb dig then None
  else match exp_of hex us rest with
       | None => None
       | Some (e, us') =>
           if us' && negb (underscore_ok hex (if hex then SawDigit else SawStart) body) then None
           else let '(n, d) := if hex then pow_rat m 2 (e - 4 * fd) else pow_rat m 10 (e - fd)
                in Some (SynNum neg n d)
       end.

Definition prefix_of (s : str) : bool * str :=
  match s with
    | a :: b :: _ :: _ =>
        if Ascii.eqb a "0"%char && Ascii.eqb (lower b) "x"%char
        then (true, tl (tl s)) else (false, s)
    | _ => (false, s)
    end.

Lemma read_number_rest neg s :
  read_number neg s = let '(hex, body) :=
    prefix_of s in read_rest hex neg body.
Proof.
  unfold read_number. fold (prefix_of s).
  destruct (prefix_of s) as [hex body].
  unfold read_rest, exp_of. destruct (read_mant hex 0 0 false false false body) as [[[[[m fd] dot] dig] us] rest].
  destruct (negb dig); [reflexivity|]. destruct rest as [|c t]; [destruct hex; reflexivity|].
  destruct (Ascii.eqb (lower c) (if hex then "p"%char else "e"%char)); [|reflexivity].
  destruct (match t with
          | x :: t2 => if Ascii.eqb x c_plus then (false, t2)
                       else if Ascii.eqb x c_min then (true, t2) else (false, t)
          | [] => (false, t)
          end) as [eneg t'].
  destruct t' as [|x t']; [reflexivity|]. destruct (digit_val x); [|reflexivity].
  destruct (read_exp 0 us (x :: t')) as [[e us'] [|? ?]]; reflexivity.
Qed.

Definition letters (hex : bool) : str := if hex then lit "pP" else lit "eE".

Lemma letter_iff (hex : bool) c : Ascii.eqb (lower c) (if hex then "p"%char else "e"%char) = true <-> In c (letters hex).
Proof.
  assert (G : (fun c => Bool.eqb (Ascii.eqb (lower c) (if hex then "p"%char else "e"%char)) (existsb (Ascii.eqb c) (letters hex))) c = true).
  { apply (all_bytes (fun c => Bool.eqb (Ascii.eqb (lower c) (if hex then "p"%char else "e"%char)) (existsb (Ascii.eqb c) (letters hex)))).
    destruct hex; vm_compute; reflexivity. }
  cbn beta in G. apply Bool.eqb_prop in G. rewrite G, existsb_exists. split.
  - intros (x & I & Q). apply Ascii.eqb_eq in Q. now subst.
  - intros I. exists c. split; auto. apply ascii_eqb_refl.
Qed.

Lemma xletter_iff c : Ascii.eqb (lower c) "x"%char = true <-> In c (lit "xX").
Proof.
  assert (G : (fun c => Bool.eqb (Ascii.eqb (lower c) "x"%char) (existsb (Ascii.eqb c) (lit "xX"))) c = true).
  { apply (all_bytes (fun c => Bool.eqb (Ascii.eqb (lower c) "x"%char) (existsb (Ascii.eqb c) (lit "xX")))).
    vm_compute; reflexivity. }
  cbn beta in G. apply Bool.eqb_prop in G. rewrite G, existsb_exists. split.
  - intros (x & I & Q). apply Ascii.eqb_eq in Q. now subst.
  - intros I. exists c. split; auto. apply ascii_eqb_refl.
Qed.

Lemma digit_us_facts d : is_digit d -> d <> c_us /\ d <> c_plus /\ d <> c_min.
Proof. intros [H1 H2]. repeat split; intros ->; vm_compute in H1, H2; auto. Qed.

Lemma without_us_digit d ds : is_digit d -> without_us (d :: ds) = d :: without_us ds.
Proof.
  intros H. unfold without_us. cbn [filter]. change "_"%char with c_us. rewrite eqb_ne; [reflexivity|]. now apply digit_us_facts.
Qed.

Lemma without_us_digits s : Forall (fun y => is_digit y \/ y = c_us) s -> Forall is_digit (without_us s).
Proof.
  induction 1 as [|c s H F IH]; [constructor|]. unfold without_us. cbn [filter]. change "_"%char with c_us.
  destruct (Ascii.eqb_spec c c_us); cbn [negb]; auto. constructor; auto. tauto.
Qed.

Lemma power_capped l x e : power l x e <-> exists c p d ds,
    x = c :: p ++ d :: ds /\ In c l /\ (p = [] \/ p = ["+"%char])
    /\ is_digit d /\ Forall (fun y => is_digit y \/ y = "_"%char) ds /\ capped (without_us (d :: ds)) e.
Proof.
  split.
  - intros (c & p & d & ds & a & b & H1 & H2 & H3 & H4 & H5 & H6 & H7 & H8). exists c, p, d, ds.
    repeat (split; auto). exists a, b. rewrite without_us_digit by auto. auto.
  - intros (c & p & d & ds & H1 & H2 & H3 & H4 & H5 & (a & b & H6 & H7)). rewrite without_us_digit in H6 by auto.
    exists c, p, d, ds, a, b. repeat (split; auto).
Qed.

Lemma power_head l x e : power l x e -> exists c t, x = c :: t /\ In c l.
Proof. rewrite power_capped. intros (c & p & d & ds & H1 & H2 & _). eauto. Qed.

Lemma exp_of_power hex us x e : power (letters hex) x e ->
  (0 <= e)%Z /\ exp_of hex us x = Some (e, us || existsb (Ascii.eqb c_us) x).
Proof.
  rewrite power_capped. intros (c & p & d & ds & -> & Hl & Hp & Hd & Hds & Hc). unfold exp_of.
  pose proof Hl as Hl'. apply letter_iff in Hl. rewrite Hl.
  destruct (digit_us_facts d Hd) as (N1 & N2 & N3).
  assert (F : Forall (fun y => is_digit y \/ y = c_us) (d :: ds)) by (constructor; auto).
  destruct (read_exp_capped (d :: ds) us F) as (e' & C & P & R).
  assert (e' = e) as -> by (apply (capped_fun (without_us (d :: ds))); [now apply without_us_digits|exact C|exact Hc]).
  assert ((match p ++ d :: ds with
          | x :: t2 => if Ascii.eqb x c_plus then (false, t2)
                       else if Ascii.eqb x c_min then (true, t2) else (false, p ++ d :: ds)
          | [] => (false, p ++ d :: ds)
          end) = (false, d :: ds)) as ->.
  { destruct Hp as [-> | ->]; cbn [app].
    - rewrite (eqb_ne _ _ N2), (eqb_ne _ _ N3). reflexivity.
    - reflexivity. }
  rewrite (digit_val_digit d) by auto. rewrite R. split; auto. f_equal. f_equal. f_equal.
  cbn [existsb]. rewrite existsb_app. cbn [existsb].
  assert (Ascii.eqb c_us c = false) as ->. { apply eqb_ne. intros <-. destruct hex; cbn in Hl'; intuition discriminate. }
  destruct Hp as [-> | ->]; reflexivity.
Qed.

Lemma exp_of_inv hex us x r : ~ In c_min x -> exp_of hex us x = Some r ->
  (x = [] /\ hex = false) \/ exists e, power (letters hex) x e.
Proof.
  intros M. destruct x as [|c t]; [destruct hex; [discriminate|auto]|]. intros H. right. unfold exp_of in H.
  destruct (Ascii.eqb (lower c) (if hex then "p"%char else "e"%char)) eqn:L; [|discriminate]. apply letter_iff in L.
  assert (G : exists p t', t = p ++ t' /\ (p = [] \/ p = ["+"%char]) /\
    (match t with
          | x :: t2 => if Ascii.eqb x c_plus then (false, t2)
                       else if Ascii.eqb x c_min then (true, t2) else (false, t)
          | [] => (false, t)
          end) = (false, t')).
  { destruct t as [|y t]; [exists [], []; auto|]. destruct (Ascii.eqb_spec y c_plus) as [->|N]; [exists [c_plus], t; auto|].
    destruct (Ascii.eqb_spec y c_min) as [->|N']; [|exists [], (y :: t); auto]. exfalso. apply M. right. now left. }
  destruct G as (p & t' & -> & Hp & E). rewrite E in H. destruct t' as [|d ds]; [discriminate|].
  pose proof (digit_val_spec d) as D. destruct (digit_val d); [|discriminate].
  assert (Hd : is_digit d) by tauto.
  pose proof (read_exp_bytes (d :: ds) 0 us) as (q & Q & F). destruct (read_exp 0 us (d :: ds)) as [[e us'] [|? ?]]; [|discriminate].
  cbn [snd] in Q. rewrite app_nil_r in Q. subst q. inversion F; subst.
  assert (F' : Forall (fun y => is_digit y \/ y = c_us) (d :: ds)) by (eapply Forall_impl; [|exact F]; cbn beta; tauto).
  destruct (read_exp_capped (d :: ds) us F') as (e' & C & _). exists e'. apply power_capped.
  exists c, p, d, ds. repeat (split; auto). now inversion F'.
Qed.

(** ** The mantissa *)

Lemma filter_split (p : ascii -> bool) c s : forall i f, filter p s = i ++ c :: f ->
  exists a b, s = a ++ c :: b /\ filter p a = i /\ filter p b = f.
Proof.
  induction s as [|x s IH]; intros i f E; [destruct i; discriminate|]. cbn [filter] in E. destruct (p x) eqn:P.
  - destruct i as [|y i]; cbn [app] in E; inversion E; subst.
    + exists [], s. auto.
    + destruct (IH i f H1) as (a & b & -> & <- & <-). exists (y :: a), b. cbn [filter app]. now rewrite P.
  - destruct (IH i f E) as (a & b & -> & <- & <-). exists (x :: a), b. cbn [filter app]. now rewrite P.
Qed.

Lemma without_mbytes hex s : Forall (digit_in hex) (without_us s) -> Forall (mbyte hex) s.
Proof.
  unfold without_us. induction s as [|c s IH]; cbn [filter]; auto. change "_"%char with c_us.
  destruct (Ascii.eqb_spec c c_us) as [->|N]; cbn [negb]; intros F.
  - constructor; [now left|auto].
  - inversion F; subst. constructor; [now right|auto].
Qed.

Lemma mbytes_without hex s : Forall (mbyte hex) s -> Forall (digit_in hex) (without_us s).
Proof.
  unfold without_us. induction 1 as [|c s H F IH]; cbn [filter]; auto. change "_"%char with c_us.
  destruct (Ascii.eqb_spec c c_us) as [->|N]; cbn [negb]; auto. constructor; auto. destruct H; [congruence|auto].
Qed.

Lemma mantissa_split hex m i f : mantissa hex m i f <->
  exists a b, m = a ++ c_dot :: b /\ Forall (mbyte hex) a /\ Forall (mbyte hex) b /\ without_us a = i /\ without_us b = f /\ i ++ f <> [].
Proof.
  split.
  - intros (E & F & N). apply filter_split in E as (a & b & -> & <- & <-). exists a, b.
    apply Forall_app in F as [Fa Fb]. split; [reflexivity|]. split; [now apply without_mbytes|]. split; [now apply without_mbytes|]. auto.
  - intros (a & b & -> & Fa & Fb & <- & <- & N). split; [|split; auto].
    + unfold without_us. rewrite filter_app. reflexivity.
    + apply Forall_app. split; now apply mbytes_without.
Qed.

Lemma number_app hex a b : number hex (a ++ b) = (number hex a * base hex ^ Z.of_nat (length b) + number hex b)%Z.
Proof.
  induction a as [|c a IH]; cbn [app number]; [lia|]. rewrite IH, app_length, Nat2Z.inj_add, Z.pow_add_r by lia. ring.
Qed.

Lemma face_nonneg hex c : digit_in hex c -> (0 <= face c)%Z.
Proof.
  intros [H|[_ H]].
  - unfold face. destruct H as [H1 H2]. unfold digit in *.
    destruct (Z.ltb_spec (Z.of_N (N_of_ascii c)) 58); lia.
  - cbn in H. repeat (destruct H as [<-|H]; [vm_compute; discriminate|]). destruct H.
Qed.

Lemma number_nonneg hex s : Forall (digit_in hex) s -> (0 <= number hex s)%Z.
Proof.
  induction 1 as [|c s H F IH]; cbn [number]; [lia|]. apply face_nonneg in H.
  assert (0 <= base hex ^ Z.of_nat (length s))%Z by (apply Z.pow_nonneg; destruct hex; cbn; lia). nia.
Qed.

Lemma not_mbyte_letter hex c : In c (letters hex) -> ~ mbyte hex c.
Proof.
  intros I M. assert (c <> c_us) by (intros ->; destruct hex; cbn in I; intuition discriminate).
  destruct M as [M|M]; [auto|]. apply digit_in_dec in M as (v & M).
  destruct hex; cbn in I; intuition subst; discriminate.
Qed.

Lemma existsb_mid a b c : existsb (Ascii.eqb c_us) (a ++ c :: b) = existsb (Ascii.eqb c_us) a || (Ascii.eqb c_us c || existsb (Ascii.eqb c_us) b).
Proof. now rewrite existsb_app. Qed.

(** The mantissa loop on digits, point, digits. *)
Lemma read_mant_point hex a b x : Forall (mbyte hex) a -> Forall (mbyte hex) b ->
  match x with [] => True | c :: _ => ~ mbyte hex c end ->
  read_mant hex 0 0 false false false (a ++ c_dot :: b ++ x) =
  (number hex (without_us a ++ without_us b), Z.of_nat (length (without_us b)), true,
   match without_us a ++ without_us b with [] => false | _ => true end,
   existsb (Ascii.eqb c_us) (a ++ c_dot :: b), x).
Proof.
  intros Fa Fb Nx. rewrite (read_mant_run hex a) by auto. cbn [read_mant].
  change (Ascii.eqb c_dot c_us) with false. change (Ascii.eqb c_dot c_dot) with true. cbn iota.
  rewrite (read_mant_run hex b) by auto. rewrite read_mant_stop.
  2: { destruct x; auto. }
  rewrite number_app, existsb_mid. change (Ascii.eqb c_us c_dot) with false. cbn [orb].
  rewrite Z.mul_0_l, !Z.add_0_l.
  assert (((match without_us a with [] => false | _ :: _ => true end) || match without_us b with [] => false | _ :: _ => true end)%bool
    = match without_us a ++ without_us b with [] => false | _ :: _ => true end) as ->.
  { destruct (without_us a), (without_us b); reflexivity. }
  reflexivity.
Qed.

(** ** Numbers with a point *)

Definition point_body (hex : bool) (body : str) (n d : Z) : Prop :=
  exists m i f x e,
    body = m ++ x /\ mantissa hex m i f /\ (hex = false /\ x = [] /\ e = 0%Z \/ power (letters hex) x e)
    /\ separated hex (m ++ x)
    /\ n = (number hex (i ++ f) * (if hex then 2 else 10) ^ e)%Z /\ d = (base hex ^ Z.of_nat (length f))%Z.

Lemma pow_rat_base m b e fd : (0 < b)%Z -> (0 <= e)%Z -> (0 <= fd)%Z ->
  let '(n, d) := pow_rat m b (e - fd) in
  (0 < d /\ n * b ^ fd = m * b ^ e * d)%Z /\ (0 <= m -> 0 <= n)%Z.
Proof.
  intros B E F. unfold pow_rat. destruct (Z.leb_spec 0 (e - fd)).
  - split; [split; [lia|]|].
    + replace (b ^ e)%Z with (b ^ (e - fd) * b ^ fd)%Z by (rewrite <- Z.pow_add_r by lia; f_equal; lia). ring.
    + intros. pose proof (Z.pow_nonneg b (e - fd)). nia.
  - split; [split; [apply Z.pow_pos_nonneg; lia|]|].
    + replace (b ^ fd)%Z with (b ^ e * b ^ (- (e - fd)))%Z by (rewrite <- Z.pow_add_r by lia; f_equal; lia). ring.
    + auto.
Qed.

Lemma read_rest_point hex neg body n d : point_body hex body n d ->
  exists n' d', read_rest hex neg body = Some (SynNum neg n' d') /\ (0 <= n /\ 0 < d /\ 0 <= n' /\ 0 < d' /\ n' * d = n * d')%Z.
Proof.
  intros (m & i & f & x & e & -> & M & X & S & -> & ->).
  apply mantissa_split in M as (a & b & -> & Fa & Fb & <- & <- & Ne).
  assert (Nx : match x with [] => True | c :: _ => ~ mbyte hex c end).
  { destruct X as [(_ & -> & _)|X]; auto. apply power_head in X as (c & t & -> & I). now apply not_mbyte_letter. }
  assert (Ex : (0 <= e)%Z /\ forall us, exp_of hex us x = Some (e, us || existsb (Ascii.eqb c_us) x)).
  { destruct X as [(-> & -> & ->)|X].
    - split; [lia|]. intros us. cbn. now rewrite orb_false_r.
    - split; [exact (proj1 (exp_of_power hex false x e X))|]. intros us. now apply exp_of_power. }
  destruct Ex as [E0 Ex].
  unfold read_rest. rewrite <- app_assoc. cbn [app]. rewrite read_mant_point by auto.
  destruct (without_us a ++ without_us b) as [|d0 ds] eqn:Ed; [congruence|]. cbn [negb]. rewrite Ex.
  rewrite <- existsb_app. rewrite <- app_assoc. cbn [app].
  rewrite <- app_assoc in S. cbn [app] in S. apply us_check in S. rewrite S.
  set (fd := Z.of_nat (length (without_us b))). assert (F0 : (0 <= fd)%Z) by (unfold fd; lia).
  assert (N0 : (0 <= number hex (d0 :: ds))%Z).
  { apply number_nonneg. rewrite <- Ed. apply Forall_app. split; now apply mbytes_without. }
  destruct hex.
  - pose proof (pow_rat_base (number true (d0 :: ds)) 2 e (4 * fd) ltac:(lia) E0 ltac:(lia)) as P.
    destruct (pow_rat _ 2 (e - 4 * fd)) as [n' d']. destruct P as [[P1 P2] P3]. exists n', d'. split; auto.
    cbn [base]. replace (16 ^ fd)%Z with (2 ^ (4 * fd))%Z by (rewrite Z.pow_mul_r by lia; reflexivity).
    pose proof (Z.pow_pos_nonneg 2 (4 * fd) ltac:(lia) ltac:(lia)). pose proof (Z.pow_pos_nonneg 2 e ltac:(lia) ltac:(lia)).
    repeat split; auto; nia.
  - pose proof (pow_rat_base (number false (d0 :: ds)) 10 e fd ltac:(lia) E0 ltac:(lia)) as P.
    destruct (pow_rat _ 10 (e - fd)) as [n' d']. destruct P as [[P1 P2] P3]. exists n', d'. split; auto.
    cbn [base].
    pose proof (Z.pow_pos_nonneg 10 fd ltac:(lia) ltac:(lia)). pose proof (Z.pow_pos_nonneg 10 e ltac:(lia) ltac:(lia)).
    repeat split; auto; nia.
Qed.

Lemma power_nodot l x e : ~ In c_dot l -> power l x e -> ~ In c_dot x.
Proof.
  intros L (c & p & d & ds & a & b & -> & H2 & H3 & H4 & H5 & _) [->|I]; [auto|].
  apply in_app_or in I as [I|[->|I]].
  - destruct H3 as [->| ->]; [destruct I|]. destruct I as [I|[]]. discriminate.
  - now apply dot_nd in H4.
  - rewrite Forall_forall in H5. destruct (H5 _ I) as [H|H]; [now apply dot_nd in H|discriminate].
Qed.

Lemma letters_nodot hex : ~ In c_dot (letters hex).
Proof. destruct hex; cbn; intuition discriminate. Qed.

Lemma read_rest_inv hex neg body r : In c_dot body -> ~ In c_min body -> read_rest hex neg body = Some r ->
  exists n d, point_body hex body n d.
Proof.
  intros I M H. destruct (span hex body) as (a & y & -> & Fa & Ny).
  destruct y as [|c y].
  { exfalso. rewrite app_nil_r in I. rewrite Forall_forall in Fa. destruct (Fa _ I) as [Q|Q]; [discriminate|now apply digit_in_dot in Q]. }
  destruct (Ascii.eqb_spec c c_dot) as [->|Nd].
  - destruct (span hex y) as (b & x & -> & Fb & Nx). unfold read_rest in H. rewrite read_mant_point in H by auto.
    destruct (without_us a ++ without_us b) as [|d0 ds] eqn:Ed; [discriminate|]. cbn [negb] in H.
    destruct (exp_of hex _ x) as [[e us']|] eqn:Ex; [|discriminate].
    assert (Mx : ~ In c_min x). { intros Q. apply M. apply in_or_app. right. right. apply in_or_app. now right. }
    assert (exists e0, (hex = false /\ x = [] /\ e0 = 0%Z \/ power (letters hex) x e0)
        /\ us' = existsb (Ascii.eqb c_us) (a ++ c_dot :: b) || existsb (Ascii.eqb c_us) x) as (e0 & X & Us).
    { destruct (exp_of_inv _ _ _ _ Mx Ex) as [[-> ->]|(e0 & X)].
      - exists 0%Z. cbn in Ex. inversion Ex; subst. rewrite orb_false_r. auto.
      - exists e0. destruct (exp_of_power hex (existsb (Ascii.eqb c_us) (a ++ c_dot :: b)) x e0 X) as [_ Q].
        rewrite Q in Ex. inversion Ex; subst. auto. }
    rewrite Us, <- existsb_app, <- app_assoc in H. cbn [app] in H.
    destruct (existsb (Ascii.eqb c_us) (a ++ c_dot :: b ++ x) && _)%bool eqn:S in H; [discriminate|]. apply us_check in S.
    eexists _, _. exists (a ++ c_dot :: b), (without_us a), (without_us b), x, e0.
    split; [now rewrite <- app_assoc|]. split; [apply mantissa_split; exists a, b; repeat (split; auto); rewrite Ed; discriminate|].
    split; auto. split; [rewrite <- app_assoc; exact S|]. split; reflexivity.
  - exfalso. unfold read_rest in H. rewrite (read_mant_run hex a) in H by auto. rewrite read_mant_stop in H by (split; [auto|congruence]).
    destruct (negb _); [discriminate|]. destruct (exp_of hex _ (c :: y)) as [[e us']|] eqn:Ex; [|discriminate].
    assert (Mx : ~ In c_min (c :: y)) by (intros Q; apply M; apply in_or_app; now right).
    destruct (exp_of_inv _ _ _ _ Mx Ex) as [[Q _]|(e0 & X)]; [discriminate|].
    apply in_app_or in I as [I|I].
    + rewrite Forall_forall in Fa. destruct (Fa _ I) as [Q|Q]; [discriminate|now apply digit_in_dot in Q].
    + now apply (power_nodot _ _ _ (letters_nodot hex) X).
Qed.

(** The prefix of a hexadecimal number. *)
Lemma body_second_dec a b t n d : point_body false (a :: b :: t) n d -> ~ In b (lit "xX").
Proof.
  intros (m & i & f & x & e & E & M & X & _) I. apply mantissa_split in M as (p & q & -> & Fp & Fq & <- & <- & Ne).
  assert (Nb : ~ mbyte false b).
  { intros [->|Q]; [cbn in I; intuition discriminate|]. apply digit_in_dec in Q as (v & Q). cbn in I. intuition subst; discriminate. }
  assert (Nd : b <> c_dot) by (intros ->; cbn in I; intuition discriminate).
  destruct p as [|p0 [|p1 p]]; cbn [app] in E.
  - destruct q as [|q0 q]; cbn [app] in E; inversion E; subst; [now apply Ne|]. inversion Fq; auto.
  - inversion E; subst. congruence.
  - inversion E; subst. inversion Fp as [|? ? ? Fp']. inversion Fp'; auto.
Qed.

Lemma point_number_body s n d : point_number s n d <->
  (point_body false s n d \/ exists z t, s = "0"%char :: z :: t /\ In z (lit "xX") /\ point_body true t n d).
Proof.
  split.
  - intros [m i f x e M X S|z m i f x e Z M X S].
    + left. exists m, i, f, x, e. split; auto. split; auto. split; [|auto]. destruct X as [[-> ->]|X]; auto.
    + right. exists z, (m ++ x). split; auto. split; auto. exists m, i, f, x, e. repeat (split; auto).
  - intros [(m & i & f & x & e & -> & M & X & S & -> & ->)|(z & t & -> & Z & (m & i & f & x & e & -> & M & X & S & -> & ->))].
    + apply pn_decimal; auto. destruct X as [(_ & -> & ->)|X]; auto.
    + destruct X as [(X & _)|X]; [discriminate|]. now apply pn_hex.
Qed.

Lemma body_nonempty hex s n d : point_body hex s n d -> s <> [].
Proof.
  intros (m & i & f & x & e & -> & M & _). apply mantissa_split in M as (p & q & -> & _). destruct p; discriminate.
Qed.

Lemma read_point neg s n d : point_number s n d ->
  exists n' d', read_number neg s = Some (SynNum neg n' d') /\ (0 <= n /\ 0 < d /\ 0 <= n' /\ 0 < d' /\ n' * d = n * d')%Z.
Proof.
  rewrite point_number_body, read_number_rest. intros [H|(z & t & -> & Z & H)].
  - assert (prefix_of s = (false, s)) as ->; [|now apply read_rest_point].
    unfold prefix_of. destruct s as [|a [|b [|c t]]]; auto. destruct (Ascii.eqb (lower b) "x"%char) eqn:L; [|now rewrite andb_false_r].
    apply xletter_iff in L. now apply body_second_dec in H.
  - destruct t as [|c t]; [now apply body_nonempty in H|]. unfold prefix_of. rewrite ascii_eqb_refl. cbn [andb].
    apply xletter_iff in Z. rewrite Z. cbn [tl]. now apply read_rest_point.
Qed.

Lemma read_point_inv neg s r : In c_dot s -> ~ In c_min s -> read_number neg s = Some r -> exists n d, point_number s n d.
Proof.
  intros I M. rewrite read_number_rest.
  destruct (prefix_of s) as [hex body] eqn:E. intros H.
  assert (G : hex = false /\ body = s \/ hex = true /\ exists z, s = "0"%char :: z :: body /\ In z (lit "xX")).
  { unfold prefix_of in E. destruct s as [|a [|b [|c t]]]; try (inversion E; subst; auto; fail).
    destruct (Ascii.eqb_spec a "0"%char) as [->|]; [|inversion E; subst; auto].
    destruct (Ascii.eqb (lower b) "x"%char) eqn:L; cbn [andb] in E; inversion E; subst; auto.
    right. split; auto. exists b. split; auto. now apply xletter_iff. }
  destruct G as [[-> ->]|(-> & z & -> & Z)].
  - destruct (read_rest_inv _ _ _ _ I M H) as (n & d & P). exists n, d. apply point_number_body. auto.
  - destruct (read_rest_inv true neg body r) as (n & d & P); auto.
    + destruct I as [I|[I|I]]; [discriminate|subst; cbn in Z; intuition discriminate|auto].
    + intros Q. apply M. right. now right.
    + exists n, d. apply point_number_body. right. eauto.
Qed.

(** ** Signs *)

Lemma occ_notin c u : occurrences c u = 0 -> ~ In c u.
Proof.
  unfold occurrences. intros H I. assert (In c (filter (Ascii.eqb c) u)) by (apply filter_In; split; auto using ascii_eqb_refl).
  destruct (filter (Ascii.eqb c) u); [auto|discriminate].
Qed.

Lemma sign_cases u : sign_errs u = [] -> ~ In c_min u \/ exists v, u = c_min :: v /\ ~ In c_min v.
Proof.
  unfold sign_errs. change "-"%char with c_min. destruct (occurrences c_min u) as [|[|k]] eqn:O; [left; now apply occ_notin| |discriminate].
  destruct u as [|c v]; [discriminate|]. destruct (Ascii.eqb_spec c c_min) as [->|]; [|discriminate]. intros _. right. exists v. split; auto.
  apply occ_notin. unfold occurrences in *. cbn [filter] in O. rewrite ascii_eqb_refl in O. cbn in O. lia.
Qed.

Lemma point_head v n d : point_number v n d -> exists c t, v = c :: t /\ c <> c_plus /\ c <> c_min.
Proof.
  rewrite point_number_body. intros [(m & i & f & x & e & -> & M & _)|(z & t & -> & _)].
  - apply mantissa_split in M as (a & b & -> & Fa & _). destruct a as [|c a]; cbn [app].
    + eexists _, _. split; [reflexivity|]. split; discriminate.
    + eexists _, _. split; [reflexivity|]. inversion Fa as [|? ? H _]; subst.
      destruct H as [->|H]; [split; discriminate|]. apply digit_in_dec in H as (v & H). split; intros ->; discriminate.
  - eexists _, _. split; [reflexivity|]. split; discriminate.
Qed.

Lemma point_dot v n d : point_number v n d -> In c_dot v.
Proof.
  rewrite point_number_body. intros [(m & i & f & x & e & -> & M & _)|(z & t & -> & _ & (m & i & f & x & e & -> & M & _))];
    apply mantissa_split in M as (a & b & -> & _); rewrite <- app_assoc; cbn [app].
  - apply in_or_app. right. now left.
  - right. right. apply in_or_app. right. now left.
Qed.

Lemma signed_syn u neg n d : signed_number u neg n d ->
  exists n' d', parse_float_syn u = Some (SynNum neg n' d') /\ (0 <= n /\ 0 < d /\ 0 <= n' /\ 0 < d' /\ n' * d = n * d')%Z.
Proof.
  intros (v & P & S). pose proof (point_dot _ _ _ P) as I. destruct (point_head _ _ _ P) as (c & t & E & N1 & N2).
  destruct (read_point neg v n d P) as (n' & d' & R & Q). exists n', d'. split; auto. rewrite syn_dot.
  2: { destruct S as [(_ & ->)|(_ & [->| ->])]; auto; now right. }
  destruct S as [(-> & ->)|(-> & [->| ->])]; auto. rewrite E in *. rewrite (eqb_ne _ _ N1), (eqb_ne _ _ N2). exact R.
Qed.

Lemma signed_syn_inv u r : one_point u -> parse_float_syn u = Some r -> exists neg n d, signed_number u neg n d.
Proof.
  intros [S O]. assert (I : In c_dot u) by (apply occ_In; change c_dot with "."%char; lia). rewrite syn_dot by auto.
  destruct u as [|c t]; [discriminate|]. destruct (Ascii.eqb_spec c c_plus) as [->|N1].
  - intros H. destruct (sign_cases _ S) as [M|(v & Q & _)]; [|discriminate].
    destruct (read_point_inv false t r) as (n & d & P); auto.
    + destruct I as [I|I]; [discriminate|auto].
    + intros Q. apply M. now right.
    + exists false, n, d. exists t. split; auto.
  - destruct (Ascii.eqb_spec c c_min) as [->|N2]; intros H.
    + destruct (sign_cases _ S) as [M|(v & Q & M)]; [destruct M; now left|]. inversion Q; subst.
      destruct (read_point_inv true v r) as (n & d & P); auto.
      { destruct I as [I|I]; [discriminate|auto]. }
      exists true, n, d. exists v. split; auto.
    + destruct (sign_cases _ S) as [M|(v & Q & M)]; [|congruence].
      destruct (read_point_inv false (c :: t) r) as (n & d & P); auto.
      exists false, n, d. exists (c :: t). split; auto.
Qed.

Lemma signed_float k u neg n d f : signed_number u neg n d -> rounds_to k neg n d f -> parse_float k u = f.
Proof.
  intros P R. destruct (signed_syn _ _ _ _ P) as (n' & d' & Syn & N & D & N' & D' & Q).
  unfold parse_float. rewrite Syn. fold (round_opt k neg n' d').
  apply (rounds_to_fun k neg n d); auto.
  apply (rounds_to_ratio k neg n' d'); auto. now apply rounds_to_round.
Qed.

(** ** Every scalar *)

Lemma one_point_scalar u : one_point u ->
  scalar_of u = match parse_float F64 u with
        | None => GErr [EFloatSyn]
        | Some d => match parse_float F32 u with
                    | Some f => GVal (PScal (SFlt F32 f))
                    | None => GVal (PScal (SFlt F64 d))
                    end
        end.
Proof.
  intros [S O]. change "."%char with c_dot in O. assert (I : In c_dot u) by (apply occ_In; lia).
  rewrite scalar_of_number; [|intros ->; destruct I|now apply dot_not_keyword].
  rewrite number_token_eq by (intros ->; destruct I).
  assert (number_errs u = []) as ->.
  { unfold number_errs, point_errs. change "."%char with c_dot. now rewrite S, O. }
  now rewrite O.
Qed.

Lemma reads_scalar u r : reads u r -> tok_of (scalar_of u) = r.
Proof.
  intros Hr. destruct Hr as [u r L|u neg n d f O P R|u neg n d f O P R32 R|u neg n d O P R|u O H].
  - now apply lexeme_scalar.
  - rewrite one_point_scalar by auto. rewrite (signed_float F32 _ neg n d _ P R).
    destruct (signed_syn _ _ _ _ P) as (_ & _ & _ & N & D & _).
    pose proof (rounds_to_round F64 neg n d N D) as R64.
    rewrite (signed_float F64 _ neg n d _ P R64).
    destruct (round_opt F64 neg n d) as [g|] eqn:E; auto. exfalso.
    destruct R64 as [[V _]|(_ & m & e & Q & _)]; [|congruence].
    destruct R as [[_ O32]|(O32 & _)]; [discriminate|]. apply O32.
    unfold overflows in *. eapply Z.le_trans; [|exact V].
    apply Z.mul_le_mono_nonneg_r; [lia|]. cbv; congruence.
  - rewrite one_point_scalar by auto. rewrite (signed_float F32 _ neg n d _ P R32), (signed_float F64 _ neg n d _ P R). reflexivity.
  - rewrite one_point_scalar by auto. rewrite (signed_float F64 _ neg n d _ P R). reflexivity.
  - rewrite one_point_scalar by auto. unfold parse_float. destruct (parse_float_syn u) as [s|] eqn:E; auto.
    exfalso. destruct (signed_syn_inv u s O E) as (neg & n & d & P). now apply (H neg n d).
Qed.

Theorem reads_fun u r r' : reads u r -> reads u r' -> r = r'.
Proof. intros H H'. apply reads_scalar in H, H'. congruence. Qed.

Lemma digits_dec u : Forall is_digit u \/ ~ Forall is_digit u.
Proof.
  induction u as [|c u [H|H]]; [left; constructor| |].
  - pose proof (digit_val_spec c) as D. destruct (digit_val c).
    + left. constructor; tauto.
    + right. intros F. inversion F; tauto.
  - right. intros F. inversion F; auto.
Qed.

Lemma narrowest_unsigned z : (0 <= z < 2 ^ 64)%Z -> exists k, narrowest unsigned_types z k.
Proof.
  intros H.
  assert (G : exists k, In k unsigned_types /\ (z <= 2 ^ width true k - 1)%Z /\
    forall k', In k' unsigned_types -> (z <= 2 ^ width true k' - 1)%Z -> (width true k <= width true k')%Z).
  { destruct (Z.lt_ge_cases z (2 ^ 8)); [exists KUInt8|destruct (Z.lt_ge_cases z (2 ^ 16)); [exists KUInt16|destruct (Z.lt_ge_cases z (2 ^ 32)); [exists KUInt32|exists KUInt64]]];
      (split; [cbn; tauto|]; split; [cbn [width]; lia|]; intros k' [<-|[<-|[<-|[<-|[]]]]]; cbn [width]; intros; lia). }
  destruct G as (k & I & F & L). exists k. split; auto. split; [apply fits_u; auto; lia|].
  intros k' I' F'. apply L; auto. apply fits_u in F'; auto. lia.
Qed.

Lemma narrowest_signed z : (- 2 ^ 63 <= z < 2 ^ 63)%Z -> exists k, narrowest signed_types z k.
Proof.
  intros H.
  assert (G : exists k, In k signed_types /\ (- 2 ^ (width true k - 1) <= z <= 2 ^ (width true k - 1) - 1)%Z /\
    forall k', In k' signed_types -> (- 2 ^ (width true k' - 1) <= z <= 2 ^ (width true k' - 1) - 1)%Z -> (width true k <= width true k')%Z).
  { assert (D : forall p, (0 <= p)%Z -> ((- 2 ^ p <= z <= 2 ^ p - 1) \/ ~ (- 2 ^ p <= z <= 2 ^ p - 1))%Z) by (intros; lia).
    destruct (D 7%Z ltac:(lia)); [exists KInt8|destruct (D 15%Z ltac:(lia)); [exists KInt16|destruct (D 31%Z ltac:(lia)); [exists KInt32|exists KInt64]]];
      (split; [cbn; tauto|]; split; [cbn [width]; lia|]; intros k' [<-|[<-|[<-|[<-|[]]]]]; cbn [width]; intros; lia). }
  destruct G as (k & I & F & L). exists k. split; auto. split; [apply fits_s; auto; lia|].
  intros k' I' F'. apply L; auto. apply fits_s in F'; auto.
Qed.

Lemma keyword_dec u : keyword u \/ ~ keyword u.
Proof.
  unfold keyword. destruct (str_eqb_spec u (lit "true")); auto. destruct (str_eqb_spec u (lit "false")); auto.
  destruct (str_eqb_spec u (lit "null")); auto. tauto.
Qed.

Theorem reads_total u : exists r, reads u r.
Proof.
  destruct (list_eq_dec ascii_dec u []) as [->|Nu]; [exists TokNone; repeat constructor|].
  destruct (keyword_dec u) as [[->|[->| ->]]|K].
  { eexists. apply rd_lexeme. apply lx_true. }
  { eexists. apply rd_lexeme. apply lx_false. }
  { eexists. apply rd_lexeme. apply lx_null. }
  destruct (sign_errs u ++ point_errs u) as [|e0 es] eqn:Er.
  2: { eexists. apply rd_lexeme. apply lx_signs. rewrite Er. discriminate. }
  apply app_eq_nil in Er as [Es Ep].
  destruct (occurrences "."%char u) as [|[|k]] eqn:O; [| |unfold point_errs in Ep; rewrite O in Ep; discriminate].
  - destruct (sign_cases u Es) as [M|(v & -> & M)].
    + assert (Om : occurrences "-"%char u = 0) by (apply occ_none; intros x I ->; auto).
      destruct (digits_dec u) as [F|F].
      * assert (N : numeral u (decimal u)) by (split; auto). pose proof (decimal_nonneg u F).
        destruct (Z.lt_ge_cases (decimal u) (2 ^ 64)).
        -- destruct (narrowest_unsigned (decimal u)) as (k & Hk); [lia|]. eexists. apply rd_lexeme. eapply lx_nat; eauto.
        -- eexists. apply rd_lexeme. eapply lx_nat_big; eauto.
      * eexists. apply rd_lexeme. now apply lx_not_nat.
    + assert (Om : occurrences "-"%char v = 0) by (apply occ_none; intros x I ->; auto).
      assert (Od : occurrences "."%char v = 0) by (exact O).
      destruct (list_eq_dec ascii_dec v []) as [->|Nv].
      { eexists. apply rd_lexeme. apply lx_not_neg; auto. }
      destruct (digits_dec v) as [F|F].
      * assert (N : numeral v (decimal v)) by (split; auto). pose proof (decimal_nonneg v F).
        destruct (Z.lt_ge_cases (2 ^ 63) (decimal v)).
        -- eexists. apply rd_lexeme. eapply lx_neg_big; eauto.
        -- destruct (narrowest_signed (- decimal v)) as (k & Hk); [lia|]. eexists. apply rd_lexeme. eapply lx_neg; eauto.
      * eexists. apply rd_lexeme. apply lx_not_neg; auto.
  - assert (OP : one_point u) by (split; auto).
    destruct (parse_float_syn u) as [s|] eqn:Sy.
    + destruct (signed_syn_inv u s OP Sy) as (neg & n & d & P).
      destruct (signed_syn _ _ _ _ P) as (_ & _ & _ & N & D & _).
      pose proof (rounds_to_round F32 neg n d N D) as R32. pose proof (rounds_to_round F64 neg n d N D) as R64.
      destruct (round_opt F32 neg n d) as [f|]; [eexists; eapply rd_float32; eauto|].
      destruct (round_opt F64 neg n d) as [f|]; [eexists; eapply rd_float64; eauto|].
      eexists; eapply rd_big; eauto.
    + eexists. apply rd_not_number; auto. intros neg n d P. destruct (signed_syn _ _ _ _ P) as (? & ? & Q & _). congruence.
Qed.

Theorem reads_iff u r : reads u r <-> tok_of (scalar_of u) = r.
Proof.
  split; [apply reads_scalar|]. intros <-. destruct (reads_total u) as (r & H). pose proof (reads_scalar u r H) as E. now rewrite E.
Qed.
