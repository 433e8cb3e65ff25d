(** * GetArrayOfT on reachable states *)
From Coq Require Import Ascii String List NArith ZArith Bool Lia.
From Verif Require Import GoStr StrLemmas GoNum GoFloat Heap Common ValueModel ArrayModel MapModel
  GetterModel SpecDict DictLemmas SpecWorld SpecNum SpecArray NumLemmas Inv World Reach MapFacts GetterFacts
  GetterFrame GetterLift GetterMore ArrayFacts.
Import ListNotations.
Local Open Scope Z_scope.

Lemma arr_cell h a l : Inv h -> w_arr (view h) a = Some l -> nth_error h a = Some (CArr l).
Proof. intros I H. now apply (im_arr _ _ (view_impl _ I)) in H. Qed.
Lemma val_cell h v i : Inv h -> w_val (view h) v = Some i -> nth_error h v = Some (CVal i).
Proof. intros I H. now apply (im_val _ _ (view_impl _ I)) in H. Qed.

Lemma elem_cell h a l v : Inv h -> w_arr (view h) a = Some l -> In (Some v) l ->
  exists i, nth_error h v = Some (CVal i) /\ ok_iface h i /\ w_val (view h) v = Some i.
Proof.
  intros I Ha Hv. pose proof (inv_arr _ I _ _ (arr_cell _ _ _ I Ha)) as F.
  rewrite Forall_forall in F. destruct (F _ Hv) as [i Hi]. exists i.
  split; auto. split; [eapply inv_val; eauto|]. now apply (im_val _ _ (view_impl _ I)).
Qed.

Lemma own_proper {A} (get : nat -> res (gres (option A))) l rs :
  (forall v r, get v = Ok r -> proper r) -> Forall2 (own get) l rs -> Forall proper rs.
Proof.
  intros P. induction 1 as [|o r l rs H F IH]; constructor; auto.
  destruct o; cbn in H; eauto. subst. discriminate.
Qed.
Lemma own_value_proper {A} (get : nat -> res (gres A)) l rs :
  (forall v r, get v = Ok r -> proper r) -> Forall2 (own_value get) l rs -> Forall proper rs.
Proof.
  intros P. induction 1 as [|o r l rs H F IH]; constructor; auto.
  destruct o; cbn in H; eauto. subst. discriminate.
Qed.

Lemma arr_ptr_own {A} (get : nat -> res (gres (option A))) h a l rs :
  Inv h -> (forall v r, get v = Ok r -> proper r) ->
  w_arr (view h) a = Some l -> Forall2 (own get) l rs ->
  exists r, arr_collect_ptr get h a = Ok r /\ collected rs r.
Proof.
  intros I P Ha F. unfold arr_collect_ptr. rewrite (proj2 (rd_arr_iff _ _ _) (arr_cell _ _ _ I Ha)). cbn [rbind].
  rewrite (collect_ptr_own _ _ _ F). cbn [rbind]. eexists. split; [reflexivity|].
  apply collected_finish. eapply own_proper; eauto.
Qed.
Lemma arr_val_own {A} (get : nat -> res (gres A)) h a l rs :
  Inv h -> (forall v r, get v = Ok r -> proper r) ->
  w_arr (view h) a = Some l -> Forall2 (own_value get) l rs ->
  exists r, arr_collect_val get h a = Ok r /\ collected rs r.
Proof.
  intros I P Ha F. unfold arr_collect_val. rewrite (proj2 (rd_arr_iff _ _ _) (arr_cell _ _ _ I Ha)). cbn [rbind].
  rewrite (collect_val_own _ _ _ F). cbn [rbind]. eexists. split; [reflexivity|].
  apply collected_finish. eapply own_value_proper; eauto.
Qed.

(** ** Every getter is element by element *)
Lemma array_pointwise X h a l :
  reachable X h -> w_arr (view h) a = Some l ->
  (forall k rs, k <> KInt -> k <> KUInt -> Forall2 (own (value_GetIntKind k X h)) l rs ->
     exists r, arr_GetArrayOfIntKind k X h a = Ok r /\ collected rs r)
  /\ (forall k rs, k <> KInt -> k <> KUInt -> Forall2 (own_value (value_GetIntKindValue k X h)) l rs ->
     exists r, arr_GetArrayOfIntKindValue k X h a = Ok r /\ collected rs r)
  /\ (forall rs, Forall2 (own (value_GetFloat32 X h)) l rs ->
     exists r, arr_GetArrayOfFloat32 X h a = Ok r /\ collected rs r)
  /\ (forall rs, Forall2 (own (value_GetFloat64 X h)) l rs ->
     exists r, arr_GetArrayOfFloat64 X h a = Ok r /\ collected rs r)
  /\ (forall rs, Forall2 (own_value (value_GetFloat32Value X h)) l rs ->
     exists r, arr_GetArrayOfFloat32Value X h a = Ok r /\ collected rs r)
  /\ (forall rs, Forall2 (own_value (value_GetFloat64Value X h)) l rs ->
     exists r, arr_GetArrayOfFloat64Value X h a = Ok r /\ collected rs r)
  /\ (forall rs, Forall2 (own (value_GetBool_content X h)) l rs ->
     exists r, arr_GetArrayOfBool X h a = Ok r /\ collected rs r)
  /\ (forall rs, Forall2 (own_value (value_GetBoolValue X h)) l rs ->
     exists r, arr_GetArrayOfBoolValue X h a = Ok r /\ collected rs r)
  /\ (forall rs, Forall2 (own (value_GetString_content X h)) l rs ->
     exists r, arr_GetArrayOfString X h a = Ok r /\ collected rs r)
  /\ (forall rs, Forall2 (own_value (value_GetStringValue X h)) l rs ->
     exists r, arr_GetArrayOfStringValue X h a = Ok r /\ collected rs r).
Proof.
  intros R Ha. pose proof (reachable_Inv _ _ R) as I.
  repeat match goal with |- _ /\ _ => split end.
  - intros k rs N1 N2 F.
    assert (G : exists r, arr_collect_ptr (value_GetIntKind k X h) h a = Ok r /\ collected rs r)
      by (eapply arr_ptr_own; eauto using GetIntKind_proper).
    destruct k; try congruence; exact G.
  - intros k rs N1 N2 F.
    assert (G : exists r, arr_collect_val (value_GetIntKindValue k X h) h a = Ok r /\ collected rs r)
      by (eapply arr_val_own; eauto using GetIntKindValue_proper).
    destruct k; try congruence; exact G.
  - intros; eapply arr_ptr_own; eauto using GetFloat32_proper.
  - intros; eapply arr_ptr_own; eauto using GetFloat64_proper.
  - intros; eapply arr_val_own; eauto using GetFloat32Value_proper.
  - intros; eapply arr_val_own; eauto using GetFloat64Value_proper.
  - intros; eapply arr_ptr_own; eauto using GetBool_proper.
  - intros; eapply arr_val_own; eauto using GetBoolValue_proper.
  - intros; eapply arr_ptr_own; eauto using GetString_proper.
  - intros; eapply arr_val_own; eauto using GetStringValue_proper.
Qed.

(** ** Elements and map entries

    Putting the element's [*Value] in a fresh map shows that the element answers
    what the Map getters answer. *)
Lemma hosted X h v i :
  reachable X h -> w_val (view h) v = Some i ->
  exists h' m, reachable X h' /\ agree h h' /\ has (w_map (view h')) m
    /\ object_at (view h') m [] = Some i /\ map_GetValue h' m [] = Ok (Some v)
    /\ scalar_of (view h') i = scalar_of (view h) i.
Proof.
  intros R Hv.
  destruct (run_one X h ANewMap R Logic.I) as (h1 & _ & R1 & P1).
  pose proof (reachable_Inv _ _ R) as I. pose proof (view_impl _ I) as P.
  pose proof (val_cell _ _ _ I Hv) as Cv.
  pose proof (reachable_Inv _ _ R1) as I1. pose proof (view_impl _ I1) as V1.
  remember (view h) as w eqn:Ew. set (w1 := snd (spec_call ANewMap w)) in *.
  remember (view h1) as u1 eqn:Eu1. set (m := S (w_next w)) in *.
  pose proof (w_val_lt _ _ P _ _ Hv) as Lt.
  assert (H1 : has (w_map w1) m) by (exists []; unfold w1; cbn; unfold put; now rewrite Nat.eqb_refl).
  destruct (impl_same_map _ _ P1 _ _ V1 H1) as [Hm1 Em1].
  assert (Hv1 : w_val u1 v = Some i).
  { eapply impl_same_val; [exact P1|exact V1|]. exact Hv. }
  assert (K2 : ok_call u1 (AMapSetValue m [] (Some v))) by (split; [exact Hm1|now exists i]).
  rewrite Eu1 in K2. destruct (run_one X h1 _ R1 K2) as (h2 & _ & R2 & P2). rewrite <- Eu1 in *.
  pose proof (reachable_Inv _ _ R2) as I2. pose proof (view_impl _ I2) as V2.
  set (w2 := snd (spec_call (AMapSetValue m [] (Some v)) u1)) in *.
  assert (H2 : has (w_map w2) m) by (unfold w2, has; cbn; unfold put; rewrite Nat.eqb_refl; eauto).
  destruct (impl_same_map _ _ P2 _ _ V2 H2) as [Hm2 Em2].
  assert (D : dict_get (map_at (view h2) m) [] = Some (Some v)).
  { rewrite Em2. unfold w2, map_at. cbn. unfold put. rewrite Nat.eqb_refl. cbn [the].
    now rewrite dict_get_set, str_eqb_refl. }
  assert (Hv2 : w_val (view h2) v = Some i).
  { eapply impl_same_val; [exact P2|exact V2|]. exact Hv1. }
  assert (Ax : forall p s, w_var w p = Some s -> w_var (view h2) p = Some s).
  { intros p s Hp. eapply impl_same_var; [exact P2|exact V2|].
    change (w_var w2 p) with (w_var u1 p). eapply impl_same_var; [exact P1|exact V1|]. exact Hp. }
  exists h2, m. split; auto. split; [|split; [|split; [|split]]]; auto.
  - apply (impl_agree h w h2 (view h2)); auto.
    + intros x j Hx. eapply impl_same_val; [exact P2|exact V2|]. change (w_val w2 x) with (w_val u1 x).
      eapply impl_same_val; [exact P1|exact V1|exact Hx].
    + intros x j Hx. eapply impl_same_arr; [exact P2|exact V2|]. change (w_arr w2 x) with (w_arr u1 x).
      eapply impl_same_arr; [exact P1|exact V1|exact Hx].
  - unfold object_at. now rewrite D.
  - rewrite (map_GetValue_impl h2 (view h2) V2) by auto. now rewrite D.
  - destruct i as [| |t [p|]| | | | | | | | |[?|]|[?|]| |[?|]| | |[?|]|[?|]|? [?|]]; try reflexivity. cbn [scalar_of].
    assert (O : ok_iface h (IPtr t (Some p))).
    { eapply inv_val; eauto. }
    destruct O as (s & Hs & _). assert (E : w_var w p = Some s) by (apply (im_var _ _ P); auto).
    now rewrite E, (Ax _ _ E).
Qed.

Lemma agree_scalar_cat h h' i : scalar_of (view h') i = scalar_of (view h) i -> cat_of (view h') i = cat_of (view h) i.
Proof. intros E. unfold cat_of. now rewrite E. Qed.

Lemma signed_numeral_fun t y z : signed_numeral t y -> signed_numeral t z -> y = z.
Proof.
  assert (D : forall c u x, numeral (c :: u) x -> c <> "+"%char /\ c <> "-"%char).
  { intros c u x (_ & F & _). inversion F as [|? ? Hc]. split; intros ->; unfold is_digit, digit in Hc; cbn in Hc; lia. }
  assert (N : forall u a b, numeral u a -> numeral u b -> a = b).
  { intros u a b (_ & _ & Ea) (_ & _ & Eb). congruence. }
  intros [A|[(u & -> & A)|(u & -> & A)]] [B|[(u' & E & B)|(u' & E & B)]]; subst;
    try (apply D in A; intuition congruence); try (apply D in B; intuition congruence); try discriminate E.
  - eapply N; eauto.
  - injection E as ->. eapply N; eauto.
  - injection E as ->. pose proof (N _ _ _ A B). lia.
Qed.

Lemma cat_scalar w i s : scalar_of w i = Some s ->
  cat_of w i = Some (match s with SStr _ => CatStr | SBool _ => CatBool | SInt _ _ => CatInt | SFlt _ _ => CatFlt end).
Proof.
  intros E. unfold cat_of. rewrite E.
  destruct i as [| |? [|]|?|[|]|?|[|]|?|[|]| | |[?|]|[?|]| |[?|]| | |[?|]|[?|]|? [?|]]; cbn in E; try discriminate E; destruct s; reflexivity.
Qed.
Lemma cat_container w i c : scalar_of w i = None -> cat_of w i = Some c -> c = CatMap \/ c = CatArr.
Proof.
  intros E. unfold cat_of. rewrite E.
  destruct i as [| |? [|]|?|[|]|?|[|]|?|[|]| | |[?|]|[?|]| |[?|]| | |[?|]|[?|]|? [?|]]; intros H; try discriminate H; injection H as <-; auto.
Qed.

(** A present element answers what its map entry answers. *)
Section V.
  Context (X : ext) (h : heap) (v : nat) (i : iface).
  Hypothesis R : reachable X h.
  Hypothesis Hv : w_val (view h) v = Some i.
  Let I := reachable_Inv _ _ R.
  Let Cv : nth_error h v = Some (CVal i) := val_cell _ _ _ I Hv.

  Lemma nil_elem : nil_object i = true ->
    (forall k, k <> KUInt -> value_GetIntKind k X h v = Ok (GVal None))
    /\ value_GetFloat64 X h v = Ok (GVal None)
    /\ value_GetBool_content X h v = Ok (GVal None) /\ (exists e, value_GetBoolValue X h v = Ok (GErr [e]))
    /\ value_GetString_content X h v = Ok (GVal None) /\ (exists e, value_GetStringValue X h v = Ok (GErr [e])).
  Proof.
    intros N.
    assert (Z : iface_IsNil X i = true).
    { destruct i as [|s|t [p|]|z|[z|]|z|[z|]|z|[z|]| | |[?|]|[?|]| |[?|]| | |[?|]|[?|]|? [?|]]; try discriminate N; reflexivity. }
    assert (S : value_GetInt64 X h v = Ok (GVal None)).
    { unfold value_GetInt64. rewrite (proj2 (rd_val_iff _ _ _) Cv). cbn [rbind]. now rewrite Z. }
    assert (U : value_GetUInt64 X h v = Ok (GVal None)).
    { unfold value_GetUInt64. rewrite (proj2 (rd_val_iff _ _ _) Cv). cbn [rbind]. now rewrite Z. }
    split; [|split; [|split; [|split; [|split]]]].
    - intros k NU. destruct k; cbn [value_GetIntKind]; unfold value_GetInt, value_GetInt8, value_GetInt16,
        value_GetInt32, value_GetUInt8, value_GetUInt16, value_GetUInt32; rewrite ?S, ?U; auto.
      + now destruct (x_is64 X).
      + congruence.
    - unfold value_GetFloat64. rewrite (proj2 (rd_val_iff _ _ _) Cv). cbn [rbind]. now rewrite Z.
    - unfold value_GetBool_content, value_GetBool. rewrite (proj2 (rd_val_iff _ _ _) Cv). cbn [rbind]. now rewrite Z.
    - unfold value_GetBoolValue. rewrite (proj2 (rd_val_iff _ _ _) Cv). cbn [rbind]. rewrite Z. eauto.
    - unfold value_GetString_content, value_GetString. rewrite (proj2 (rd_val_iff _ _ _) Cv). cbn [rbind]. now rewrite Z.
    - unfold value_GetStringValue, value_GetString. rewrite (proj2 (rd_val_iff _ _ _) Cv). cbn [rbind]. rewrite Z. cbn [rbind]. eauto.
  Qed.

  Lemma via_map : nil_object i = false ->
    exists h' m, reachable X h' /\ has (w_map (view h')) m /\ object_at (view h') m [] = Some i
      /\ scalar_of (view h') i = scalar_of (view h) i
      /\ (forall k, k <> KUInt -> map_GetIntKind k X h' m [] = value_GetIntKind k X h v)
      /\ map_GetFloat64 X h' m [] = value_GetFloat64 X h v
      /\ map_GetBool X h' m [] = value_GetBool_content X h v
      /\ map_GetString X h' m [] = value_GetString_content X h v
      /\ map_GetStringValue X h' m [] = value_GetStringValue X h v.
  Proof.
    intros N. destruct (hosted X h v i R Hv) as (h' & m & R' & A & Hm & O & G & E).
    exists h', m. split; auto. split; auto. split; auto. split; auto.
    pose proof (reachable_Inv _ _ R') as I'.
    destruct (map_via_present h' I' m [] i Hm O N) as (v' & Hv' & _ & G' & Vi).
    assert (v' = v) by congruence. subst v'.
    split; [|split; [|split; [|split]]].
    - intros k NU. rewrite <- (agree_GetIntKind X h h' I A v i Cv). destruct k; try congruence; apply Vi.
    - rewrite <- (agree_GetFloat64 X h h' I A v i Cv). apply Vi.
    - rewrite <- (agree_GetBool X h h' I A v i Cv). apply Vi.
    - rewrite <- (agree_GetString X h h' I A v i Cv). apply Vi.
    - rewrite <- (agree_GetStringValue X h h' I A v i Cv). apply Vi.
  Qed.

  Lemma int_elem k :
    k <> KUInt -> nil_object i = true \/ cat_of (view h) i <> None ->
    (forall k0 z, scalar_of (view h) i = Some (SInt k0 z) ->
       fits (x_is64 X) k0 z /\ (is_signed k -> k0 = KUInt -> z <= 2 ^ 63 - 1)) ->
    exists r, value_GetIntKind k X h v = Ok r
      /\ elem_as (view h) (null_int k) (reads_int (x_is64 X) k) (Some v) r.
  Proof.
    intros NU C F. destruct (nil_object i) eqn:N.
    { exists (GVal None). split; [now apply nil_elem|]. now apply Elem_null with i. }
    destruct C as [C|C]; [discriminate|].
    destruct (via_map N) as (h' & m & R' & Hm & O & E & G & _).
    rewrite <- (G k NU). destruct (cat_of (view h) i) as [c|] eqn:Ec; [|congruence].
    assert (Ec' : cat_of (view h') i = Some c) by (rewrite <- Ec; now apply agree_scalar_cat).
    assert (Fail : (exists e, map_GetIntKind k X h' m [] = Ok (GErr [e])) ->
       (forall s, scalar_of (view h) i = Some s -> ~ null_int k s /\ forall x, ~ reads_int (x_is64 X) k s x) ->
       exists r, map_GetIntKind k X h' m [] = Ok r
      /\ elem_as (view h) (null_int k) (reads_int (x_is64 X) k) (Some v) r).
    { intros [e He] Q. exists (GErr [e]). split; auto. apply Elem_fails with i; auto. rewrite Ec. discriminate. }
    destruct (scalar_of (view h) i) as [s|] eqn:Es.
    - assert (Sa : scalar_at (view h') m [] = Some s) by (unfold scalar_at; rewrite O; now rewrite E).
      destruct s as [t|b|k0 z|fw f].
      + destruct (signed k) eqn:Sg.
        * apply is_signed_iff in Sg.
          destruct (map_int_text X h' m [] _ R' Hm Sa t k eq_refl Sg) as [T1 T2].
          destruct (parse_int 64 t) as [z|] eqn:Pz.
          -- apply parse_int_iff in Pz as [Nz Rz]; [|lia].
             assert (U : forall y, signed_numeral t y -> y = z).
             { intros y Ny. eapply signed_numeral_fun; eauto. }
             destruct (fits_dec (x_is64 X) k z) as [Fz|Fz].
             ++ destruct (T1 z Nz Fz) as [-> _]. eexists. split; [reflexivity|].
                eapply Elem_reads; eauto. cbn. auto.
             ++ apply Fail.
                ** destruct T2 as (e & -> & _); eauto. intros y Ny. now rewrite (U _ Ny).
                ** intros s [= <-]. split; [intros [Q _]; auto|]. intros y [[[_ Ny]|[Q _]] Fy]; auto.
                   rewrite (U _ Ny) in Fy. auto.
          -- assert (NN : forall z, signed_numeral t z -> ~ fits (x_is64 X) k z).
             { intros z Nz Fz. assert (Q : parse_int 64 t = Some z).
               { apply parse_int_iff; [lia|]. split; auto. rewrite fits_iff, in_range_iff in Fz.
                 change (64 - 1) with 63. destruct (x_is64 X), k; ranges; try lia; unfold is_signed in Sg; intuition discriminate. }
               congruence. }
             apply Fail.
             ++ destruct T2 as (e & -> & _); eauto.
             ++ intros s [= <-]. split; [intros [Q _]; auto|]. intros y [[[_ Ny]|[Q _]] Fy]; auto. eapply NN; eauto.
        * assert (Ns : ~ is_signed k) by (rewrite is_signed_iff; congruence).
          destruct (map_uint_text X h' m [] _ R' Hm Sa t k eq_refl Ns NU) as (T0 & T1 & T2).
          destruct (str_eqb_spec t (lit "NULL")) as [->|Nt].
          { destruct (T0 eq_refl) as [-> _]. eexists. split; [reflexivity|]. eapply Elem_null_scalar; eauto. split; auto. }
          destruct (parse_uint 64 t) as [z|] eqn:Pz.
          -- apply parse_uint_iff in Pz as [Nz Rz].
             assert (U : forall y, numeral t y -> y = z).
             { intros y (_ & _ & Dy). destruct Nz as (_ & _ & Dz). congruence. }
             destruct (fits_dec (x_is64 X) k z) as [Fz|Fz].
             ++ destruct (T1 z Nz Fz) as [-> _]. eexists. split; [reflexivity|].
                eapply Elem_reads; eauto. cbn. auto.
             ++ apply Fail.
                ** destruct T2 as (e & -> & _); eauto. intros y Ny. now rewrite (U _ Ny).
                ** intros s [= <-]. split; [intros [_ Q]; congruence|]. intros y [[[Q _]|[_ Ny]] Fy]; auto.
                   rewrite (U _ Ny) in Fy. auto.
          -- assert (NN : forall z, numeral t z -> ~ fits (x_is64 X) k z).
             { intros z Nz Fz. assert (Q : parse_uint 64 t = Some z).
               { apply parse_uint_iff. split; auto. rewrite fits_iff, in_range_iff in Fz.
                 destruct (x_is64 X), k; ranges; try lia; unfold is_signed in Ns; intuition. }
               congruence. }
             apply Fail.
             ++ destruct T2 as (e & -> & _); eauto.
             ++ intros s [= <-]. split; [intros [_ Q]; congruence|]. intros y [[[Q _]|[_ Ny]] Fy]; auto. eapply NN; eauto.
      + apply Fail.
        * destruct (mismatch X h' m [] i c R' Hm O Ec') as (M & _).
          assert (c = CatBool) by (rewrite (cat_scalar _ _ _ Es) in Ec; congruence).
          subst c. destruct (M ltac:(discriminate) ltac:(discriminate) k NU) as (e & -> & _). eauto.
        * intros s [= <-]. split; [intros [_ Q]; discriminate|]. intros x Q. exact Q.
      + destruct (F _ _ eq_refl) as [Fz Uz].
        destruct (map_int_exact X h' m [] _ R' Hm Sa k0 z k eq_refl Fz NU Uz) as [T1 T2].
        destruct (fits_dec (x_is64 X) k z) as [Fk|Fk].
        * destruct (T1 Fk) as [-> _]. eexists. split; [reflexivity|]. eapply Elem_reads; eauto. cbn. auto.
        * apply Fail.
          -- destruct (T2 Fk) as (e & -> & _). eauto.
          -- intros s [= <-]. split; [intros [_ Q]; discriminate|]. intros x [-> Q]. auto.
      + apply Fail.
        * destruct (mismatch X h' m [] i c R' Hm O Ec') as (M & _).
          assert (c = CatFlt) by (rewrite (cat_scalar _ _ _ Es) in Ec; congruence).
          subst c. destruct (M ltac:(discriminate) ltac:(discriminate) k NU) as (e & -> & _). eauto.
        * intros s [= <-]. split; [intros [_ Q]; discriminate|]. intros x Q. exact Q.
    - apply Fail; [|discriminate].
      destruct (mismatch X h' m [] i c R' Hm O Ec') as (M & _).
      assert (c <> CatInt /\ c <> CatStr) by (destruct (cat_container _ _ _ Es Ec); split; congruence).
      destruct (M ltac:(tauto) ltac:(tauto) k NU) as (e & -> & _). eauto.
  Qed.
End V.
