(** * The texts of the getters' errors (proofs for C80) *)
From Coq Require Import Ascii String List NArith ZArith Bool Lia.
From Verif Require Import GoStr StrLemmas GoNum GoFloat NumLemmas Heap Common ValueModel ArrayModel MapModel RunesModel GetterModel
  MessageModel SpecDict SpecNum SpecWorld Inv World Reach MapFacts GetterFacts SpecDoc SpecRender ShowFacts SpecString IndexFacts
  SpecMessage MessageFacts SpecNamed SaysModel SpecSays.
Import ListNotations.
Local Open Scope Z_scope.

Ltac cases_iface i :=
  destruct i as [|?s|?t [?p|]|?m|[?m|]|?a|[?a|]|?w|[?w|]|?l|?l|[?l|]|[?l|]|?e|[?e|]|?tm|?fn|[?fn|]|[?tm|]|?nm [?d|]].

Lemma stands_fun h i s s' : stands_for h i s -> stands_for h i s' -> s = s'.
Proof.
  intros [->|(p & -> & E)] [E'|(p' & E' & F)]; try congruence.
Qed.

Section G.
  Context (X : ext) (h : heap) (i : iface).
  Lemma isnil : iface_IsNil X i = unset X i.
  Proof. apply unset_spec. Qed.

  Lemma stands_unset s : stands_for h i s -> unset X i = false.
  Proof. intros S. rewrite <- isnil. exact (denotes_IsNil X h i s S). Qed.
  Lemma value_unset w : is_value i w -> unset X i = false.
  Proof. intros [-> | ->]; reflexivity. Qed.
  Lemma unset_iff : counts_as_nil X i <-> unset X i = true.
  Proof. reflexivity. Qed.
  Lemma set_iff : ~ counts_as_nil X i <-> unset X i = false.
  Proof. unfold counts_as_nil. now destruct (unset X i). Qed.

  (** An object is a scalar or not. *)
  Lemma scalar_or_not (O : ok_iface h i) : unset X i = false ->
    (exists s, stands_for h i s /\ deref h i = Ok (Some s))
    \/ ((forall s, ~ stands_for h i s) /\ deref h i = Ok None).
  Proof.
    intros N. cases_iface i; try discriminate N;
      try (right; split; [intros s0 [E|(p0 & E & _)]; discriminate E|reflexivity]).
    - left. exists s. split; [now left|reflexivity].
    - left. destruct O as (s & E & <-). exists s. assert (S : stands_for h (IPtr (stype_of s) (Some p)) s) by (right; eauto).
      split; [exact S|now apply denotes_deref].
  Qed.

  Lemma stands_deref s : stands_for h i s -> deref h i = Ok (Some s).
  Proof. apply denotes_deref. Qed.
  Lemma stands_value s w : stands_for h i s -> ~ is_value i w.
  Proof. intros [->|(p & -> & _)] [E|E]; discriminate. Qed.

End G.

Section S.
  Context (Q : str -> str) (X : ext) (h : heap) (v : loc) (i : iface).
  Context (V : nth_error h v = Some (CVal i)) (O : ok_iface h i).

  Lemma rdv : rd_val h v = Ok i.
  Proof. now apply rd_val_iff. Qed.
  (** ** Signed integers *)

  Lemma mod_wrap u z : z mod 2 ^ 64 = u mod 2 ^ 64 -> fits true KInt64 z -> wrap64 u = z.
  Proof.
    intros E H. assert (B : - 2 ^ 63 <= z <= 2 ^ 63 - 1).
    { destruct H as [[_ H]|[H _]]; [exact H|]. exfalso. apply H. unfold is_signed. auto. }
    unfold wrap64. rewrite Zplus_mod, <- E, <- Zplus_mod, Z.mod_small; lia.
  Qed.
  Lemma wrap_mod u : (wrap64 u) mod 2 ^ 64 = u mod 2 ^ 64.
  Proof.
    unfold wrap64. rewrite Zminus_mod, Z.mod_mod, <- Zminus_mod by lia. f_equal. lia.
  Qed.
  Lemma wrap_fits u : fits true KInt64 (wrap64 u).
  Proof.
    left. split; [unfold is_signed; auto|]. unfold wrap64. cbn [width].
    pose proof (Z.mod_pos_bound (u + 2 ^ 63) (2 ^ 64)). lia.
  Qed.
  Lemma fits64 z : fits true KInt64 z <-> - 2 ^ 63 <= z <= 2 ^ 63 - 1.
  Proof.
    split; [|intros H; left; split; [unfold is_signed; auto|exact H]].
    intros [[_ H]|[H _]]; [exact H|]. exfalso. apply H. unfold is_signed. auto.
  Qed.
  Lemma fitsu64 z : fits true KUInt64 z <-> 0 <= z <= 2 ^ 64 - 1.
  Proof.
    split; [|intros H; right; split; [unfold is_signed; intuition discriminate|exact H]].
    intros [[H _]|[_ H]]; [unfold is_signed in H; intuition discriminate|exact H].
  Qed.
  Lemma parse64 t z : parse_int 64 t = Some z <-> signed_numeral t z /\ fits true KInt64 z.
  Proof. rewrite fits64. apply (parse_int_iff 64). lia. Qed.
  Lemma parseu64 t z : parse_uint 64 t = Some z <-> numeral t z /\ fits true KUInt64 z.
  Proof.
    rewrite fitsu64, (parse_uint_iff 64). split; intros [N H]; split; auto; [|lia]. split; [|lia].
    eapply numeral_nonneg; eauto.
  Qed.
  Lemma parse64_none t : parse_int 64 t = None <-> forall z, signed_numeral t z -> ~ fits true KInt64 z.
  Proof.
    split.
    - intros E z S H. assert (parse_int 64 t = Some z) by (apply parse64; auto). congruence.
    - intros H. destruct (parse_int 64 t) as [z|] eqn:E; auto. apply parse64 in E as [S G]. now apply H in S.
  Qed.
  Lemma parseu64_none t : parse_uint 64 t = None <-> forall z, numeral t z -> ~ fits true KUInt64 z.
  Proof.
    split.
    - intros E z S H. assert (parse_uint 64 t = Some z) by (apply parseu64; auto). congruence.
    - intros H. destruct (parse_uint 64 t) as [z|] eqn:E; auto. apply parseu64 in E as [S G]. now apply H in S.
  Qed.

  (** What the call does, in one line per case. *)
  Definition gives (r : gres (option Z)) (ms : list str) : Prop :=
    value_GetInt64 X h v = Ok r /\ int64_says Q X h v = Ok ms.

  Lemma int64_nil : unset X i = true -> gives (GVal None) [].
  Proof.
    intros N. unfold gives, value_GetInt64, int64_says. rewrite rdv. cbn [rbind]. now rewrite isnil, N.
  Qed.

  Ltac scal S :=
    unfold gives, value_GetInt64, int64_says; rewrite rdv; cbn [rbind]; rewrite isnil, (stands_unset X _ _ _ S);
    pose proof (stands_deref _ _ _ S) as De;
    let p := fresh "p" in let Ei := fresh "Ei" in
    destruct S as [Ei|(p & Ei & _)]; rewrite Ei in *; cbn [stype_of] in *; rewrite De; cbn [rbind].

  Lemma int64_num z : signed_of X h i z -> gives (GVal (Some z)) [].
  Proof.
    intros [k u z0 S G E Ft|t z0 S N Ft|w t z0 W C N Ft].
    - pose proof (mod_wrap _ _ E Ft) as Wr.
      assert (K : scalar_int64 (SInt k u) = GVal (Some z0)).
      { unfold scalar_int64. destruct k; try now rewrite Wr.
        specialize (G eq_refl). destruct (Z.ltb_spec 9223372036854775807 u); [lia|]. now rewrite Wr. }
      scal S; rewrite K; split; auto;
        (destruct k; auto; specialize (G eq_refl); destruct (Z.ltb_spec 9223372036854775807 u); [lia|reflexivity]).
    - assert (P : parse_int 64 t = Some z0) by (apply parse64; auto).
      scal S; cbn [scalar_int64]; rewrite P; auto.
    - assert (P : parse_int 64 t = Some z0) by (apply parse64; auto).
      unfold gives, value_GetInt64, int64_says. rewrite rdv. cbn [rbind]. rewrite isnil, (value_unset X _ _ W).
      destruct W as [-> | ->]; rewrite C; cbn [rbind]; rewrite P; auto.
  Qed.

  Lemma int64_greater u : stands_for h i (SInt KUInt64 u) -> 2 ^ 63 <= u ->
    gives (GErr [EGreater]) [format_uint u ++ lit " is greater than 9223372036854775807"].
  Proof.
    intros S G. scal S; cbn [scalar_int64]; destruct (Z.ltb_spec 9223372036854775807 u); try lia; auto.
  Qed.
  Lemma int64_text t : stands_for h i (SStr t) -> (forall z, signed_numeral t z -> ~ fits true KInt64 z) ->
    gives (GErr [EConv]) [lit "error: Map.GetInt64: cannot convert " ++ go_type X i ++ lit " value to int64"].
  Proof.
    intros S G. apply parse64_none in G. scal S; cbn [scalar_int64]; rewrite G; auto.
  Qed.
  Lemma int64_value w t : is_value i w -> conv_string X h (IVal w) = Ok (GVal t) ->
    (forall z, signed_numeral t z -> ~ fits true KInt64 z) ->
    gives (GErr [EConv]) [lit "error: Map.GetInt64: cannot convert json.Value to int64 " ++ int_error Q t].
  Proof.
    intros W C G. apply parse64_none in G. unfold gives, value_GetInt64, int64_says. rewrite rdv. cbn [rbind].
    rewrite isnil, (value_unset X _ _ W). destruct W as [-> | ->]; rewrite C; cbn [rbind]; rewrite G; auto.
  Qed.
  Lemma int64_value_type w o e : is_value i w -> conv_string X h (IVal w) = Ok (GErr e) -> nth_error h w = Some (CVal o) ->
    gives (GErr e) [unsupported X (lit "JSON.ConvertInterfaceValueToStringValue") o []].
  Proof.
    intros W C G. apply rd_val_iff in G. unfold gives, value_GetInt64, int64_says. rewrite rdv. cbn [rbind].
    rewrite isnil, (value_unset X _ _ W). destruct W as [-> | ->]; rewrite C; cbn [rbind]; rewrite G; cbn [rbind]; auto.
  Qed.
  Lemma int64_type : unset X i = false -> (forall w, ~ is_value i w) ->
    (forall k' z, ~ stands_for h i (SInt k' z)) -> (forall t, ~ stands_for h i (SStr t)) ->
    gives (GErr [EType]) [unsupported X (lit "Map.GetInt64") i []].
  Proof.
    intros N W NI NS. unfold gives, value_GetInt64, int64_says. rewrite rdv. cbn [rbind]. rewrite isnil, N.
    destruct (scalar_or_not X h i O N) as [(s & S & De)|[NP De]].
    - assert (T : match s with SInt _ _ | SStr _ => False | _ => True end).
      { destruct s; try exact Logic.I; [now apply NS in S|now apply NI in S]. }
      destruct s; try tauto; (destruct S as [E|(p & E & _)]; rewrite E in *; cbn [stype_of] in *; rewrite De; cbn [rbind]; auto).
    - cases_iface i; try discriminate N; try discriminate De; try (split; reflexivity).
      + exfalso. destruct O as (s & E & <-). apply (NP s). right. eauto.
      + exfalso. apply (W w). now left.
      + exfalso. apply (W w). now right.
  Qed.

  (** Every case. *)
  Lemma int64_cases r ms : value_GetInt64 X h v = Ok r -> int64_says Q X h v = Ok ms ->
    (unset X i = true) \/ (exists z, signed_of X h i z)
    \/ (exists u, stands_for h i (SInt KUInt64 u) /\ 2 ^ 63 <= u)
    \/ (exists t, stands_for h i (SStr t) /\ forall z, signed_numeral t z -> ~ fits true KInt64 z)
    \/ (exists w t, is_value i w /\ conv_string X h (IVal w) = Ok (GVal t) /\ forall z, signed_numeral t z -> ~ fits true KInt64 z)
    \/ (exists w o e, is_value i w /\ conv_string X h (IVal w) = Ok (GErr e) /\ nth_error h w = Some (CVal o))
    \/ (unset X i = false /\ (forall w, ~ is_value i w) /\ (forall k' z, ~ stands_for h i (SInt k' z))
        /\ forall t, ~ stands_for h i (SStr t)).
  Proof.
    intros Er Em. destruct (unset X i) eqn:N; [now left|]. right.
    assert (Tx : forall t, (exists z, parse_int 64 t = Some z) \/ parse_int 64 t = None).
    { intros t. destruct (parse_int 64 t); eauto. }
    assert (VV : forall w, is_value i w ->
       (exists z, signed_of X h i z)
       \/ (exists w t, is_value i w /\ conv_string X h (IVal w) = Ok (GVal t) /\ forall z, signed_numeral t z -> ~ fits true KInt64 z)
       \/ (exists w o e, is_value i w /\ conv_string X h (IVal w) = Ok (GErr e) /\ nth_error h w = Some (CVal o))).
    { intros w W. assert (C : exists q, conv_string X h (IVal w) = Ok q).
      { unfold value_GetInt64 in Er. rewrite rdv in Er. cbn [rbind] in Er. rewrite isnil, N in Er.
        destruct W as [E|E]; rewrite E in *; destruct (conv_string X h (IVal w)); try discriminate Er; eauto. }
      destruct C as [[t|e] C].
      - destruct (Tx t) as [[z P]|P].
        + apply parse64 in P as [P1 P2]. left. exists z. eapply so_value; eauto.
        + right. left. exists w, t. rewrite <- parse64_none. auto.
      - right. right. destruct O as [o G] || idtac.
        assert (G : exists o, nth_error h w = Some (CVal o)).
        { destruct W as [E|E]; rewrite E in O; exact O. }
        destruct G as [o G]. exists w, o, e. auto. }
    destruct (scalar_or_not X h i O N) as [(s & S & De)|[NS De]].
    - destruct s as [t|b|k u|k f].
      + destruct (Tx t) as [[z P]|P].
        * apply parse64 in P as [P1 P2]. left. exists z. eapply so_text; eauto.
        * right. right. left. exists t. rewrite <- parse64_none. auto.
      + repeat right. split; [auto|]. split; [intros w; now apply (stands_value _ _ _ w S)|].
        split; intros; intros S'; pose proof (stands_fun _ _ _ _ S S'); discriminate.
      + destruct k; try (left; exists (wrap64 u); eapply so_int; [exact S|discriminate|apply wrap_mod|apply wrap_fits]).
        destruct (Z.lt_ge_cases u (2 ^ 63)) as [L|L].
        * left. exists (wrap64 u). eapply so_int; [exact S|auto|apply wrap_mod|apply wrap_fits].
        * right. left. eauto.
      + repeat right. split; [auto|]. split; [intros w; now apply (stands_value _ _ _ w S)|].
        split; intros; intros S'; pose proof (stands_fun _ _ _ _ S S'); discriminate.
    - assert (W : (exists w, is_value i w) \/ forall w, ~ is_value i w).
      { cases_iface i; try (right; intros w0 [E|E]; discriminate E).
        - left. exists w. now left.
        - left. exists w. now right. }
      destruct W as [[w W]|W].
      + destruct (VV w W) as [Y|[Y|Y]]; auto 8.
      + repeat right. repeat split; auto; intros; apply NS.
  Qed.
End S.
