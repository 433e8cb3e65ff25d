(** * The texts of the getters' errors: integers (proofs for C80) *)
From Coq Require Import Ascii String List NArith ZArith Bool Lia.
From Verif Require Import GoStr StrLemmas GoNum GoFloat NumLemmas Heap Common ValueModel ArrayModel MapModel RunesModel GetterModel
  MessageModel SpecDict SpecNum SpecWorld Inv World Reach MapFacts GetterFacts SpecDoc SpecRender ShowFacts SpecString IndexFacts
  SpecMessage MessageFacts SpecNamed SaysModel SpecSays SaysFacts.
Import ListNotations.
Local Open Scope Z_scope.

(** ** Why ParseInt fails *)

Lemma scan_digits t : forall acc, 0 <= acc -> uint_scan acc t = None -> Forall is_digit t.
Proof.
  induction t as [|c t IH]; intros acc A E; [constructor|]. cbn [uint_scan] in E.
  pose proof (digit_val_spec c) as Dc. destruct (digit_val c) as [d|]; [|discriminate]. destruct Dc as [D1 D2].
  destruct (Z.leb_spec (acc * 10 + d) (2 ^ 64 - 1)); [|discriminate].
  constructor; auto. apply (IH (acc * 10 + d)); auto. unfold is_digit in D1. subst d. lia.
Qed.
Lemma scan_numeral t z : numeral t z -> uint_scan 0 t = None \/ uint_scan 0 t = Some NumRange.
Proof.
  intros (_ & D & _). generalize 0. induction D as [|c t Hc D IH]; intros acc; cbn [uint_scan]; auto.
  assert (E : digit_val c = Some (digit c)) by (apply digit_val_digit; auto). rewrite E.
  destruct (_ <=? _); auto.
Qed.

Lemma sign_cases (t : str) :
  (exists u, (t = "+"%char :: u \/ t = "-"%char :: u)
     /\ match t with c :: r => if Ascii.eqb c c_min || Ascii.eqb c c_plus then r else t | [] => [] end = u)
  \/ ((forall u, t <> "+"%char :: u /\ t <> "-"%char :: u)
      /\ match t with c :: r => if Ascii.eqb c c_min || Ascii.eqb c c_plus then r else t | [] => [] end = t).
Proof.
  destruct t as [|c r]; [right; split; [split; discriminate|reflexivity]|].
  destruct (Ascii.eqb_spec c c_min) as [->|N1]; [left; exists r; auto|].
  destruct (Ascii.eqb_spec c c_plus) as [->|N2]; [left; exists r; auto|].
  right. split; [|reflexivity]. intros u. split; intros E; injection E; intros; [now apply N2|now apply N1].
Qed.

Lemma sign_not_digit c u : In c ["+"%char; "-"%char] -> ~ starts_too_large (c :: u) /\ forall z, ~ numeral (c :: u) z.
Proof.
  intros H. split.
  - intros (p & q & E & D & L). destruct p as [|a p]; [cbn in L; lia|]. injection E as -> _.
    inversion D as [|? ? Da]; subst. destruct H as [<-|[<-|[]]]; unfold is_digit, digit in Da; vm_compute in Da; destruct Da; congruence.
  - intros z (_ & D & _). inversion D as [|? ? Da]; subst.
    destruct H as [<-|[<-|[]]]; unfold is_digit, digit in Da; vm_compute in Da; destruct Da; congruence.
Qed.

Lemma problem_iff t p : int_problem t p <->
  p = match int_reason t with NumSyntax => lit "invalid syntax" | NumRange => lit "value out of range" end.
Proof.
  set (u := match t with c :: r => if Ascii.eqb c c_min || Ascii.eqb c c_plus then r else t | [] => [] end).
  assert (R : int_reason t = NumRange <-> starts_too_large u \/ exists z, numeral u z).
  { unfold int_reason. fold u. rewrite <- reason_range. unfold uint_reason. destruct u as [|c u'] eqn:Eu.
    - split; [discriminate|]. intros [H|[z (H & _)]]; [discriminate|congruence].
    - rewrite <- Eu in *. split.
      + destruct (uint_scan 0 u) as [[]|] eqn:E; intros H; try discriminate; auto.
        right. exists (decimal u). split; [rewrite Eu; discriminate|]. split; auto. eapply scan_digits; eauto. lia.
      + destruct (uint_scan 0 u) as [[]|] eqn:E; auto; intros [H|[z H]]; try discriminate.
        destruct (scan_numeral _ _ H); congruence. }
  assert (A : forall x, after_sign t x -> (starts_too_large x \/ exists z, numeral x z) -> x = u).
  { intros x Ax H. destruct (sign_cases t) as [(u0 & Hs & E)|[Hs E]]; fold u in E.
    - rewrite E. destruct Ax as [<-|[Ex|Ex]].
      + exfalso. destruct Hs as [Et|Et]; rewrite Et in H.
        * destruct (sign_not_digit "+"%char u0) as [N1 N2]; [cbn; auto|]. destruct H as [H|[z H]]; [auto|now apply N2 in H].
        * destruct (sign_not_digit "-"%char u0) as [N1 N2]; [cbn; auto|]. destruct H as [H|[z H]]; [auto|now apply N2 in H].
      + destruct Hs as [Et|Et]; congruence.
      + destruct Hs as [Et|Et]; congruence.
    - rewrite E. destruct Ax as [<-|[Ex|Ex]]; auto; now apply Hs in Ex. }
  assert (B : after_sign t u).
  { destruct (sign_cases t) as [(u0 & Hs & E)|[Hs E]]; fold u in E; rewrite E; [right; exact Hs|now left]. }
  split.
  - intros [x Ax H|H].
    + assert (x = u) by (eapply A; eauto). subst x. apply R in H. now rewrite H.
    + destruct (int_reason t) eqn:E; auto. destruct (proj1 R eq_refl) as [Y|[z Y]]; exfalso.
      * now apply (proj1 (H u 0 B)).
      * now apply (proj2 (H u z B)).
  - intros ->. destruct (int_reason t) eqn:E.
    + apply ip_syntax. intros x z Ax. split; intros Y.
      * assert (x = u) by (apply A; eauto). subst x. assert (NumSyntax = NumRange) by (apply R; eauto). discriminate.
      * assert (x = u) by (apply A; eauto). subst x. assert (NumSyntax = NumRange) by (apply R; eauto). discriminate.
    + apply (ip_range t u); auto. now apply R.
Qed.

(** ** Bounds *)

Definition lo_of (is64 : bool) (k : ikind) : Z :=
  match k with
  | KInt | KInt8 | KInt16 | KInt32 | KInt64 => - 2 ^ (width is64 k - 1)
  | _ => 0
  end.
Definition hi_of (is64 : bool) (k : ikind) : Z :=
  match k with
  | KInt | KInt8 | KInt16 | KInt32 | KInt64 => 2 ^ (width is64 k - 1) - 1
  | _ => 2 ^ width is64 k - 1
  end.
Lemma fits_iff is64 k z : fits is64 k z <-> lo_of is64 k <= z <= hi_of is64 k.
Proof.
  unfold fits. destruct k; cbn [lo_of hi_of]; split; intros H;
    try (destruct H as [[S H]|[S H]]; [exact H + (unfold is_signed in S; intuition discriminate)|exact H + (exfalso; apply S; unfold is_signed; auto 6)]).
  all: try (left; split; [unfold is_signed; auto 6|exact H]).
  all: right; split; [unfold is_signed; intuition discriminate|exact H].
Qed.
Lemma lo_hi is64 k : lo_of is64 k <= 0 <= hi_of is64 k.
Proof. destruct k, is64; vm_compute; split; discriminate. Qed.
Lemma least_iff is64 k z : least is64 k z <-> z = lo_of is64 k.
Proof.
  pose proof (lo_hi is64 k). unfold least. split.
  - intros [H1 H2]. rewrite fits_iff in H1. specialize (H2 (lo_of is64 k)). rewrite fits_iff in H2. lia.
  - intros ->. rewrite fits_iff. split; [lia|]. intros y. rewrite fits_iff. lia.
Qed.
Lemma greatest_iff is64 k z : greatest is64 k z <-> z = hi_of is64 k.
Proof.
  pose proof (lo_hi is64 k). unfold greatest. split.
  - intros [H1 H2]. rewrite fits_iff in H1. specialize (H2 (hi_of is64 k)). rewrite fits_iff in H2. lia.
  - intros ->. rewrite fits_iff. split; [lia|]. intros y. rewrite fits_iff. lia.
Qed.
Lemma signed_dec k : {is_signed k} + {~ is_signed k}.
Proof. destruct k; unfold is_signed; (left; auto 6; fail) || (right; intuition discriminate). Qed.

Section S.
  Context (Q : str -> str) (X : ext) (h : heap) (v : loc) (i : iface).
  Context (V : nth_error h v = Some (CVal i)) (O : ok_iface h i).
  Context (F : forall k z, stands_for h i (SInt k z) -> fits (x_is64 X) k z).

  (** ** Unsigned integers *)
  Definition givesu (r : gres (option Z)) (ms : list str) : Prop :=
    value_GetUInt64 X h v = Ok r /\ uint64_says X h v = Ok ms.

  Lemma uint64_nil : unset X i = true -> givesu (GVal None) [].
  Proof.
    intros N. unfold givesu, value_GetUInt64, uint64_says. rewrite (rdv _ _ _ V). cbn [rbind]. now rewrite isnil, N.
  Qed.
  Lemma uint64_scal s : stands_for h i s ->
    givesu (scalar_uint64 s)
      match s with
      | SInt (KInt | KInt8 | KInt16 | KInt32 | KInt64) z =>
          if 0 <=? z then [] else [lit "error: Map.GetUInt64: cannot convert negative numbers for uint64"]
      | SInt _ _ => []
      | SStr t =>
          if str_eqb t (lit "NULL") then []
          else match parse_uint 64 t with
               | Some _ => []
               | None => [lit "error: Map.GetUInt64: cannot convert *string value to uint64"]
               end
      | _ => [unsupported X (lit "Map.GetUInt64") i []]
      end.
  Proof.
    intros S. unfold givesu, value_GetUInt64, uint64_says. rewrite (rdv _ _ _ V). cbn [rbind].
    rewrite isnil, (stands_unset X _ _ _ S), (stands_deref _ _ _ S). cbn [rbind]. split; [reflexivity|].
    destruct s; try reflexivity. 
  Qed.

  Lemma uint64_num z : unsigned_of h i z -> givesu (GVal (Some z)) [] /\ fits true KUInt64 z.
  Proof.
    intros [k z0 S P|t z0 S N Ft].
    - split.
      + pose proof (uint64_scal _ S) as G. cbn [scalar_uint64] in G.
        destruct k; auto; destruct (Z.leb_spec 0 z0); auto; lia.
      + pose proof (F _ _ S) as B. apply fits_iff in B. apply fits_iff. split; [exact P|].
        assert (hi_of (x_is64 X) k <= hi_of true KUInt64) by (destruct k, (x_is64 X); vm_compute; discriminate). lia.
    - split; auto. pose proof (uint64_scal _ S) as G. cbn [scalar_uint64] in G.
      assert (P : parse_uint 64 t = Some z0) by (apply parseu64; auto). rewrite P in G.
      destruct (str_eqb_spec t (lit "NULL")) as [->|_]; auto. discriminate P.
  Qed.
  Lemma uint64_neg k u : stands_for h i (SInt k u) -> u < 0 ->
    givesu (GErr [ENegative]) [lit "error: Map.GetUInt64: cannot convert negative numbers for uint64"].
  Proof.
    intros S L. pose proof (uint64_scal _ S) as G. cbn [scalar_uint64] in G.
    pose proof (F _ _ S) as B. apply fits_iff in B.
    destruct k; try (destruct (Z.leb_spec 0 u); [lia|exact G]); cbn [lo_of] in B; lia.
  Qed.
  Lemma uint64_null : stands_for h i (SStr (lit "NULL")) -> givesu (GVal None) [].
  Proof. intros S. exact (uint64_scal _ S). Qed.
  Lemma uint64_text t : stands_for h i (SStr t) -> t <> lit "NULL" -> (forall z, numeral t z -> ~ fits true KUInt64 z) ->
    givesu (GErr [EConv]) [lit "error: Map.GetUInt64: cannot convert *string value to uint64"].
  Proof.
    intros S N G0. apply parseu64_none in G0. pose proof (uint64_scal _ S) as G. cbn [scalar_uint64] in G.
    destruct (str_eqb_spec t (lit "NULL")) as [->|_]; [contradiction|]. now rewrite G0 in G.
  Qed.
  Lemma uint64_type : unset X i = false ->
    (forall k' z, ~ stands_for h i (SInt k' z)) -> (forall t, ~ stands_for h i (SStr t)) ->
    givesu (GErr [EType]) [unsupported X (lit "Map.GetUInt64") i []].
  Proof.
    intros N NI NS. destruct (scalar_or_not X h i O N) as [(s & S & De)|[NP De]].
    - pose proof (uint64_scal _ S) as G. destruct s; try exact G; [now apply NS in S|now apply NI in S].
    - unfold givesu, value_GetUInt64, uint64_says. rewrite (rdv _ _ _ V). cbn [rbind]. now rewrite isnil, N, De.
  Qed.

  (** ** Every integer type *)
  Definition base (k : ikind) : ikind := if signed_dec k then KInt64 else KUInt64.
  Definition gives_k (k : ikind) (r : gres (option Z)) (ms : list str) : Prop :=
    (if signed_dec k then gives Q X h v r ms else givesu r ms)
    /\ (forall o, r = GVal o -> ms = []) /\ forall z, r = GVal (Some z) -> fits true (base k) z.

  Definition range_text (k : ikind) : str :=
    lit "error: value is not in range [" ++ int_text k (lo_of (x_is64 X) k) ++ lit ", " ++ int_text k (hi_of (x_is64 X) k) ++ lit "]".

  Lemma lift k r ms : k <> KUInt -> gives_k k r ms ->
    int_says Q X h k v = Ok (range_says (lo_of (x_is64 X) k) (hi_of (x_is64 X) k) (range_text k) r ms)
    /\ value_GetIntKind k X h v = Ok (narrow (lo_of (x_is64 X) k) (hi_of (x_is64 X) k) r).
  Proof.
    intros NK (G & M & B). unfold range_text.
    assert (W : forall k', base k = k' -> lo_of (x_is64 X) k = lo_of true k' -> hi_of (x_is64 X) k = hi_of true k' ->
      range_says (lo_of (x_is64 X) k) (hi_of (x_is64 X) k) (range_text k) r ms = ms
      /\ narrow (lo_of (x_is64 X) k) (hi_of (x_is64 X) k) r = r).
    { intros k' Ek -> ->. destruct r as [[z|]|e]; cbn [range_says narrow]; auto.
      - specialize (M _ eq_refl). specialize (B _ eq_refl). rewrite Ek in B. apply fits_iff in B.
        destruct (Z.ltb_spec z (lo_of true k')); [lia|]. destruct (Z.ltb_spec (hi_of true k') z); [lia|]. cbn [orb]. auto.
      - specialize (M _ eq_refl). auto. }
    unfold gives_k, base in *. destruct (signed_dec k) as [S|S].
    - destruct G as [G1 G2]. destruct k; try (unfold is_signed in S; intuition discriminate);
        unfold int_says, int32_says, signed_says, value_GetIntKind, value_GetInt, value_GetInt8, value_GetInt16, value_GetInt32.
      + destruct (x_is64 X) eqn:E6.
        * destruct (W KInt64 eq_refl eq_refl eq_refl) as [W1 W2]. unfold range_text in W1. rewrite E6 in W1. rewrite W1, W2. auto.
        * rewrite G1, G2. cbn [rbind]. auto.
      + rewrite G1, G2. cbn [rbind]. auto.
      + rewrite G1, G2. cbn [rbind]. auto.
      + rewrite G1, G2. cbn [rbind]. auto.
      + destruct (W KInt64 eq_refl eq_refl eq_refl) as [W1 W2]. unfold range_text in W1. rewrite W1, W2. auto.
    - destruct G as [G1 G2]. destruct k; try (unfold is_signed in S; tauto); try congruence;
        unfold int_says, unsigned_says, value_GetIntKind, value_GetUInt8, value_GetUInt16, value_GetUInt32.
      + rewrite G1, G2. cbn [rbind]. auto.
      + rewrite G1, G2. cbn [rbind]. auto.
      + rewrite G1, G2. cbn [rbind]. auto.
      + destruct (W KUInt64 eq_refl eq_refl eq_refl) as [W1 W2]. unfold range_text in W1. rewrite W1, W2. auto.
  Qed.

  Lemma range_out k z : ~ fits (x_is64 X) k z ->
    range_says (lo_of (x_is64 X) k) (hi_of (x_is64 X) k) (range_text k) (GVal (Some z)) [] = [range_text k]
    /\ narrow (lo_of (x_is64 X) k) (hi_of (x_is64 X) k) (GVal (Some z)) = GErr [ERange].
  Proof.
    intros N. rewrite fits_iff in N. cbn [range_says narrow].
    destruct (Z.ltb_spec z (lo_of (x_is64 X) k)); cbn [orb]; auto. destruct (Z.ltb_spec (hi_of (x_is64 X) k) z); auto. lia.
  Qed.
  Lemma range_in k z : fits (x_is64 X) k z ->
    range_says (lo_of (x_is64 X) k) (hi_of (x_is64 X) k) (range_text k) (GVal (Some z)) [] = []
    /\ narrow (lo_of (x_is64 X) k) (hi_of (x_is64 X) k) (GVal (Some z)) = GVal (Some z).
  Proof.
    intros N. rewrite fits_iff in N. cbn [range_says narrow].
    destruct (Z.ltb_spec z (lo_of (x_is64 X) k)); [lia|]. destruct (Z.ltb_spec (hi_of (x_is64 X) k) z); [lia|]. auto.
  Qed.

  Lemma number_gives k z : number_of X h k i z -> gives_k k (GVal (Some z)) [].
  Proof.
    unfold gives_k, base. intros [[S N]|[S N]]; destruct (signed_dec k); try contradiction.
    - split; [exact (int64_num Q X h v i V O _ N)|]. split; auto. intros z' E. injection E as <-. destruct N; auto.
    - destruct (uint64_num _ N) as [G B]. split; auto. split; auto. intros z' E. injection E as <-. auto.
  Qed.
  Lemma number_set k z : number_of X h k i z -> unset X i = false.
  Proof.
    intros [[_ [? ? ? S|? ? S|? ? ? W]]|[_ [? ? S|? ? S]]]; try exact (stands_unset X _ _ _ S). exact (value_unset X _ _ W).
  Qed.
  Lemma number_not_null k z : ~ is_signed k -> stands_for h i (SStr (lit "NULL")) -> ~ number_of X h k i z.
  Proof.
    intros K S [[H _]|[_ [k' z0 S' _|t z0 S' N _]]]; [auto|pose proof (stands_fun _ _ _ _ S S'); discriminate|].
    pose proof (stands_fun _ _ _ _ S S') as E. injection E as <-. destruct N as (_ & D & _).
    inversion D as [|? ? Dc]; subst. vm_compute in Dc. destruct Dc; congruence.
  Qed.

  Definition sound_at (k : ikind) (ms : list str) : Prop :=
    int_says Q X h k v = Ok ms /\ exists r, value_GetIntKind k X h v = Ok r /\ (r = GVal None <-> int_nil X h k i).

  Lemma by_error k e ms : k <> KUInt -> (if signed_dec k then gives Q X h v (GErr e) ms else givesu (GErr e) ms) ->
    ~ int_nil X h k i -> sound_at k ms.
  Proof.
    intros NK G NN. destruct (lift k (GErr e) ms NK) as [L1 L2].
    { unfold gives_k. repeat split; auto; discriminate. }
    split; [exact L1|]. exists (GErr e). split; [exact L2|]. split; [discriminate|tauto].
  Qed.
  Lemma by_none k : k <> KUInt -> (if signed_dec k then gives Q X h v (GVal None) [] else givesu (GVal None) []) ->
    int_nil X h k i -> sound_at k [].
  Proof.
    intros NK G NN. destruct (lift k (GVal None) [] NK) as [L1 L2].
    { unfold gives_k. repeat split; auto; discriminate. }
    split; [exact L1|]. exists (GVal None). split; [exact L2|]. tauto.
  Qed.
  Lemma not_int_nil k s : stands_for h i s -> s <> SStr (lit "NULL") \/ is_signed k -> ~ int_nil X h k i.
  Proof.
    intros S H [N|[K N]].
    - unfold counts_as_nil in N. rewrite (stands_unset X _ _ _ S) in N. discriminate.
    - pose proof (stands_fun _ _ _ _ S N). tauto.
  Qed.
  Lemma value_not_int_nil k w : is_value i w -> ~ int_nil X h k i.
  Proof.
    intros W [N|[K N]].
    - unfold counts_as_nil in N. rewrite (value_unset X _ _ W) in N. discriminate.
    - exact (stands_value _ _ _ _ N W).
  Qed.
  Lemma other_not_int_nil k : ~ counts_as_nil X i -> (forall t, ~ stands_for h i (SStr t)) -> ~ int_nil X h k i.
  Proof. intros N S [H|[_ H]]; [auto|now apply S in H]. Qed.

  Lemma texts_uint z a : integer_text z a -> 0 <= z -> fits true KUInt64 z -> a = format_uint z.
  Proof.
    intros T _ B. apply (integer_text_fun z); auto. exact (integer_text_format true KUInt64 z B).
  Qed.

  Lemma int_sound k ms : k <> KUInt -> int_texts Q X h k i ms -> sound_at k ms.
  Proof.
    intros NK [N|z NN N B|z lo hi a b NN N B L G Ta Tb|u a K S L Ta|k' u K S L|K S|t K S L|t K S NE L|w t p K W C L P|w o e K W C G
              |NN K W NI NS|NN K NI NS].
    - apply by_none; [auto| |now left]. unfold counts_as_nil in N.
      destruct (signed_dec k); [exact (int64_nil Q X h v i V N)|exact (uint64_nil N)].
    - pose proof (number_gives _ _ N) as Gk. destruct (lift k _ _ NK Gk) as [L1 L2].
      destruct (range_in k z B) as [R1 R2]. rewrite R1 in L1. rewrite R2 in L2. split; [exact L1|].
      eexists. split; [exact L2|]. split; [discriminate|]. intros [H|[K S]]; [contradiction|].
      destruct (number_not_null k z K S N).
    - pose proof (number_gives _ _ N) as Gk. destruct (lift k _ _ NK Gk) as [L1 L2].
      destruct (range_out k z B) as [R1 R2]. rewrite R1 in L1. rewrite R2 in L2.
      apply least_iff in L. apply greatest_iff in G. subst lo hi. pose proof (lo_hi (x_is64 X) k) as LH.
      assert (Ea : a = int_text k (lo_of (x_is64 X) k)).
      { apply (integer_text_fun _ _ _ Ta). apply (integer_text_format (x_is64 X)). apply fits_iff. lia. }
      assert (Eb : b = int_text k (hi_of (x_is64 X) k)).
      { apply (integer_text_fun _ _ _ Tb). apply (integer_text_format (x_is64 X)). apply fits_iff. lia. }
      subst a b. split; [exact L1|].
      eexists. split; [exact L2|]. split; [discriminate|]. intros [H|[K S]]; [contradiction|].
      destruct (number_not_null k z K S N).
    - pose proof (F _ _ S) as B. apply fits_iff in B. cbn [lo_of] in B.
      assert (a = format_uint u) as ->.
      { apply texts_uint; auto; [lia|]. apply fits_iff. destruct (x_is64 X); exact B. }
      eapply by_error; [auto| |eapply not_int_nil; eauto].
      destruct (signed_dec k); [exact (int64_greater Q X h v i V O _ S L)|contradiction].
    - eapply by_error; [auto| |eapply not_int_nil; [eauto|left; discriminate]].
      destruct (signed_dec k); [contradiction|exact (uint64_neg _ _ S L)].
    - apply by_none; [auto| |right; auto]. destruct (signed_dec k); [contradiction|exact (uint64_null S)].
    - eapply by_error; [auto| |eapply not_int_nil; eauto].
      destruct (signed_dec k); [exact (int64_text Q X h v i V O _ S L)|contradiction].
    - eapply by_error; [auto| |eapply not_int_nil; [eauto|left; congruence]].
      destruct (signed_dec k); [contradiction|exact (uint64_text _ S NE L)].
    - eapply by_error; [auto| |eapply value_not_int_nil; eauto].
      destruct (signed_dec k); [|contradiction]. apply problem_iff in P. subst p.
      pose proof (int64_value Q X h v i V O _ _ W C L) as Gv. unfold int_error in Gv.
      destruct (int_reason t); exact Gv.
    - eapply by_error; [auto| |eapply value_not_int_nil; eauto].
      destruct (signed_dec k); [exact (int64_value_type Q X h v i V O _ _ _ W C G)|contradiction].
    - eapply by_error; [auto| |eapply other_not_int_nil; eauto]. apply set_iff in NN.
      destruct (signed_dec k); [exact (int64_type Q X h v i V O NN W NI NS)|contradiction].
    - eapply by_error; [auto| |eapply other_not_int_nil; eauto]. apply set_iff in NN.
      destruct (signed_dec k); [contradiction|exact (uint64_type NN NI NS)].
  Qed.

  (** ** Completeness *)
  Lemma int64_says_gets ms : int64_says Q X h v = Ok ms -> exists r, value_GetInt64 X h v = Ok r.
  Proof.
    unfold int64_says, value_GetInt64. rewrite (rdv _ _ _ V). cbn [rbind]. destruct (iface_IsNil X i); eauto.
    intros E. cases_iface i; try (eexists; reflexivity);
      repeat match type of E with
             | (rbind ?c _) = Ok _ => destruct c; try discriminate E; cbn [rbind] in E |- *; eauto
             end.
  Qed.
  Lemma signed_says_base k ms : is_signed k -> int_says Q X h k v = Ok ms -> exists ms', int64_says Q X h v = Ok ms'.
  Proof.
    intros K E. destruct k; try (unfold is_signed in K; intuition discriminate);
      unfold int_says, int32_says, signed_says in E; try destruct (x_is64 X); eauto;
      (destruct (value_GetInt64 X h v); try discriminate; cbn [rbind] in E; destruct (int64_says Q X h v); try discriminate; eauto).
  Qed.

  Lemma num_texts k z : number_of X h k i z -> exists ms, int_texts Q X h k i ms.
  Proof.
    intros N. pose proof (number_set _ _ N) as U. apply set_iff in U. pose proof (lo_hi (x_is64 X) k) as LH.
    assert (D : fits (x_is64 X) k z \/ ~ fits (x_is64 X) k z) by (rewrite fits_iff; lia).
    destruct D as [D|D]; eexists; [eapply it_fits; eauto|eapply it_range; eauto].
    - apply least_iff. reflexivity.
    - apply greatest_iff. reflexivity.
    - apply (integer_text_format (x_is64 X) k). apply fits_iff. lia.
    - apply (integer_text_format (x_is64 X) k). apply fits_iff. lia.
  Qed.

  Lemma int_complete k ms : k <> KUInt -> int_says Q X h k v = Ok ms -> exists ms', int_texts Q X h k i ms'.
  Proof.
    intros NK E. destruct (signed_dec k) as [K|K].
    - destruct (signed_says_base _ _ K E) as [m0 E0]. destruct (int64_says_gets _ E0) as [r0 R0].
      destruct (int64_cases Q X h v i V O _ _ R0 E0) as [N|[[z N]|[(u & S & L)|[(t & S & L)|[(w & t & W & C & L)|[(w & o & e & W & C & G)|(N & W & NI & NS)]]]]]].
      + eexists. apply it_nil, N.
      + eapply num_texts. left. eauto.
      + eexists. eapply it_greater; eauto. apply (integer_text_format (x_is64 X) KUInt64). auto.
      + eexists. eapply it_text; eauto.
      + eexists. eapply it_value; eauto. apply problem_iff. reflexivity.
      + eexists. eapply it_value_type; eauto.
      + eexists. eapply it_type; auto. now apply set_iff.
    - clear E. destruct (unset X i) eqn:N; [eexists; apply it_nil, N|].
      destruct (scalar_or_not X h i O N) as [(s & S & De)|[NP De]].
      + destruct s as [t|b|k' u|k' f].
        * destruct (str_eqb_spec t (lit "NULL")) as [->|NE]; [eexists; eapply it_null; eauto|].
          destruct (parse_uint 64 t) as [z|] eqn:P.
          -- apply parseu64 in P as [P1 P2]. eapply num_texts. right. split; auto. eapply uo_text; eauto.
          -- pose proof (proj1 (parseu64_none t) P). eexists. eapply it_utext; eauto.
        * eexists. apply it_utype; auto; [now apply set_iff| |]; intros; intros S'; pose proof (stands_fun _ _ _ _ S S'); discriminate.
        * destruct (Z.lt_ge_cases u 0) as [L|L]; [eexists; eapply it_negative; eauto|].
          eapply num_texts. right. split; auto. eapply uo_int; eauto.
        * eexists. apply it_utype; auto; [now apply set_iff| |]; intros; intros S'; pose proof (stands_fun _ _ _ _ S S'); discriminate.
      + eexists. apply it_utype; auto. now apply set_iff.
  Qed.

  Lemma int_says_iff k ms : k <> KUInt -> int_says Q X h k v = Ok ms <-> int_texts Q X h k i ms.
  Proof.
    intros NK. split; intros H.
    - destruct (int_complete _ _ NK H) as [ms' T]. pose proof (proj1 (int_sound _ _ NK T)) as E. congruence.
    - exact (proj1 (int_sound _ _ NK H)).
  Qed.
  Lemma int_value_says_iff k ms : k <> KUInt ->
    int_value_says Q X h k v = Ok ms
    <-> (int_nil X h k i /\ ms = [int_nil_says k]) \/ (~ int_nil X h k i /\ int_texts Q X h k i ms).
  Proof.
    intros NK. unfold int_value_says.
    assert (T : int_nil_text k = int_nil_says k) by (destruct k; reflexivity).
    assert (A : forall ms', int_texts Q X h k i ms' -> exists r : gres (option Z),
      (r <-r value_GetIntKind k X h v ;; ms <-r int_says Q X h k v ;; Ok (nil_says (int_nil_text k) r ms))
      = Ok (nil_says (int_nil_says k) r ms') /\ (r = GVal None <-> int_nil X h k i)).
    { intros ms' Hm. destruct (int_sound _ _ NK Hm) as (E & r & R & Hr). exists r. rewrite R, E, T. auto. }
    assert (B : int_nil X h k i -> int_texts Q X h k i []).
    { intros [N|[K S]]; [now apply it_nil|now apply it_null]. }
    split.
    - intros E. destruct (value_GetIntKind k X h v) as [r0| | |] eqn:R0; try discriminate. cbn [rbind] in E.
      destruct (int_says Q X h k v) as [m0| | |] eqn:E0; try discriminate. cbn [rbind] in E.
      apply int_says_iff in E0; auto. destruct (int_sound _ _ NK E0) as (E1 & r & R & Hr).
      assert (r = r0) by congruence. subst r0. injection E as <-.
      destruct r as [[z|]|e]; cbn [nil_says].
      + right. split; auto. rewrite <- Hr. discriminate.
      + left. split; [now apply Hr|]. now rewrite T.
      + right. split; auto. rewrite <- Hr. discriminate.
    - intros [[N ->]|[N Hm]].
      + destruct (A _ (B N)) as (r & -> & Hr). apply Hr in N. rewrite N. reflexivity.
      + destruct (A _ Hm) as (r & -> & Hr). destruct r as [[z|]|e]; cbn [nil_says]; auto. exfalso. apply N, Hr. reflexivity.
  Qed.
End S.
