(** * Parsing the same text again *)
From Coq Require Import Ascii String List NArith ZArith Bool Lia.
From Verif Require Import GoStr StrLemmas GoNum GoFloat Heap Common ValueModel ArrayModel MapModel JsonModel ParserModel ReadModel
  SpecDict DictLemmas SpecNum NumLemmas SpecWorld Inv World Reach MapFacts GetterFacts GetterLift GetterMore ArrayGet SpecFloat FloatFacts SpecDoc RepFacts
  SpecText SpecToken SpecParse TreeParser ParseTop ParseFacts TypedFacts ParseMore SpecRender SpecRound SpecRead ReadFacts SpecTrip TripFacts SpecRepeat.
Import ListNotations.
Local Open Scope Z_scope.

Lemma parse_same X h X' h' s : reachable X h -> reachable X' h' ->
  (Parse X s h = Panic <-> Parse X' s h' = Panic) /\ forall r, parses X h s r <-> parses X' h' s r.
Proof.
  assert (H : forall X h X' h', reachable X h -> reachable X' h' ->
    (Parse X s h = Panic -> Parse X' s h' = Panic) /\ forall r, parses X h s r -> parses X' h' s r).
  { clear. intros X h X' h' R R'. destruct (tparse s) as [[od|e]| | |] eqn:T.
    - destruct od as [d|].
      + pose proof (parses_tree X h s (GVal d) R T) as A. pose proof (parses_tree X' h' s (GVal d) R' T) as B.
        split; [|intros r C; now rewrite (parses_fun _ _ _ _ _ C A)].
        destruct A as (h1 & m & A & _). congruence.
      + exfalso. pose proof (parse_refines X h s R) as A. now rewrite T in A.
    - pose proof (parses_tree X h s (GErr e) R T) as A. pose proof (parses_tree X' h' s (GErr e) R' T) as B.
      split; [|intros r C; now rewrite (parses_fun _ _ _ _ _ C A)].
      destruct A as (_ & h1 & A & _). congruence.
    - pose proof (parse_panic X h s R T) as A. split; [intros _; now apply parse_panic|].
      intros [d|e] C; [destruct C as (h1 & m & C & _)|destruct C as (_ & h1 & C & _)]; congruence.
    - exfalso. pose proof (parse_refines X h s R) as A. now rewrite T in A.
    - exfalso. pose proof (parse_refines X h s R) as A. now rewrite T in A. }
  intros R R'. destruct (H X h X' h' R R') as [A B]. destruct (H X' h' X h R' R) as [A' B'].
  split; [split; auto|]. intros r. split; auto.
Qed.

Section Two.
  Context (X : ext) (h : heap) (v : nat) (i : iface) (h' : heap) (v' : nat) (i' : iface).
  Hypothesis R : reachable X h.
  Hypothesis Hv : w_val (view h) v = Some i.
  Hypothesis R' : reachable X h'.
  Hypothesis Hv' : w_val (view h') v' = Some i'.
  Context (F F' : nat -> Prop).
  Let Cv : nth_error h v = Some (CVal i) := val_cell _ _ _ (reachable_Inv _ _ R) Hv.
  Let Rd : rd_val h v = Ok i := proj2 (rd_val_iff _ _ _) Cv.
  Let Cv' : nth_error h' v' = Some (CVal i') := val_cell _ _ _ (reachable_Inv _ _ R') Hv'.
  Let Rd' : rd_val h' v' = Ok i' := proj2 (rd_val_iff _ _ _) Cv'.

  Lemma float32_of : value_GetFloat64 X h' v' = value_GetFloat64 X h v ->
    value_GetFloat64Value X h' v' = value_GetFloat64Value X h v
    /\ value_GetFloat32 X h' v' = value_GetFloat32 X h v /\ value_GetFloat32Value X h' v' = value_GetFloat32Value X h v.
  Proof. intros E. unfold value_GetFloat64Value, value_GetFloat32, value_GetFloat32Value. now rewrite E. Qed.

  Lemma same_null : iface_IsNil X i = true -> (forall s, SpecWorld.scalar_of (view h) i <> Some s) -> iface_IsNil X i' = true ->
    reads_same X h v h' v'.
  Proof.
    intros Z NS Z'. assert (A : as_null X h v) by (eapply read_null; eauto). assert (B : as_null X h' v') by (eapply read_null; eauto).
    destruct (null_alike X h v i h' v') as (_ & _ & _ & _ & _ & _ & _ & G); auto.
    assert (Ek : forall kd, value_GetIntKind kd X h' v' = value_GetIntKind kd X h v).
    { intros kd. destruct (ikind_eqb kd KUInt) eqn:Ku; [destruct kd; try discriminate; reflexivity|].
      assert (NU : kd <> KUInt) by (intros ->; discriminate).
      destruct A as [A _], B as [B _]. destruct (A kd NU) as [-> _]. now destruct (B kd NU) as [-> _]. }
    assert (Ef : value_GetFloat64 X h' v' = value_GetFloat64 X h v) by (destruct A as (_ & (-> & _) & _), B as (_ & (-> & _) & _); auto).
    destruct (float32_of Ef) as (F1 & F2 & F3).
    unfold reads_same. split; [|split; [auto|split; [auto|split; [auto|split; [auto|split; [|split; [|split; [|split; [|split; [|exact G]]]]]]]]]].
    - intros kd. unfold value_GetIntKindValue. now rewrite Ek.
    - unfold value_GetString_content, value_GetString. rewrite Rd, Rd'. cbn [rbind]. now rewrite Z, Z'.
    - unfold value_GetStringValue, value_GetString. rewrite Rd, Rd'. cbn [rbind]. now rewrite Z, Z'.
    - unfold value_GetBool_content, value_GetBool. rewrite Rd, Rd'. cbn [rbind]. now rewrite Z, Z'.
    - unfold value_GetBoolValue. rewrite Rd, Rd'. cbn [rbind]. now rewrite Z, Z'.
    - unfold value_IsNil. rewrite Rd, Rd'. cbn [rbind]. now rewrite Z, Z'.
  Qed.

  Lemma same_scalar s : denotes h i s -> denotes h' i' s -> reads_same X h v h' v'.
  Proof.
    intros D D'.
    assert (Ek : forall kd, value_GetIntKind kd X h' v' = value_GetIntKind kd X h v).
    { intros kd. rewrite (scalar_kind X h v i R Hv s kd D). now rewrite (scalar_kind X h' v' i' R' Hv' s kd D'). }
    assert (Ef : value_GetFloat64 X h' v' = value_GetFloat64 X h v).
    { destruct (scalar_float X h v i R Hv s D) as [-> _]. now destruct (scalar_float X h' v' i' R' Hv' s D') as [-> _]. }
    destruct (float32_of Ef) as (F1 & F2 & F3).
    unfold reads_same. split; [|split; [auto|split; [auto|split; [auto|split; [auto|split; [|split; [|split; [|split; [|split; [|]]]]]]]]]].
    - intros kd. unfold value_GetIntKindValue. now rewrite Ek.
    - destruct s as [t| | |]; [|destruct (scalar_no_string X h v i R Hv _ D) as [-> _]; [discriminate|];
          destruct (scalar_no_string X h' v' i' R' Hv' _ D') as [-> _]; [discriminate|reflexivity]..].
      destruct (string_same X h v i R Hv _ t D eq_refl) as [-> _]. now destruct (string_same X h' v' i' R' Hv' _ t D' eq_refl) as [-> _].
    - destruct s as [t| | |]; [|destruct (scalar_no_string X h v i R Hv _ D) as [_ ->]; [discriminate|];
          destruct (scalar_no_string X h' v' i' R' Hv' _ D') as [_ ->]; [discriminate|reflexivity]..].
      destruct (string_same X h v i R Hv _ t D eq_refl) as [_ ->]. now destruct (string_same X h' v' i' R' Hv' _ t D' eq_refl) as [_ ->].
    - destruct (bool_same X h v i R Hv s D) as [-> _]. now destruct (bool_same X h' v' i' R' Hv' s D') as [-> _].
    - destruct (bool_same X h v i R Hv s D) as [_ ->]. now destruct (bool_same X h' v' i' R' Hv' s D') as [_ ->].
    - unfold value_IsNil. rewrite Rd, Rd'. cbn [rbind]. now rewrite (denotes_IsNil X _ _ _ D), (denotes_IsNil X _ _ _ D').
    - apply (scalars_containers X h v i h' v' i' R Hv R' Hv' s s D D').
  Qed.

  Lemma same_container c c' : container_of i c -> container_of i' c' -> 
    agree_on (on_option (same_keys h h')) (value_GetMap X h v) (value_GetMap X h' v')
    /\ agree_on (same_keys h h') (value_GetMapValue X h v) (value_GetMapValue X h' v')
    /\ agree_on (on_option (same_length h h')) (value_GetArray X h v) (value_GetArray X h' v')
    /\ agree_on (same_length h h') (value_GetArrayValue X h v) (value_GetArrayValue X h' v') -> reads_same X h v h' v'.
  Proof.
    intros Co Co' G.
    destruct (container_others X h v i R Hv c Co) as [[A1 A2] [A3 A4]]. destruct (container_others X h' v' i' R' Hv' c' Co') as [[B1 B2] [B3 B4]].
    assert (Z : iface_IsNil X i = false) by (destruct Co as [->|[->|[->| ->]]]; reflexivity).
    assert (Z' : iface_IsNil X i' = false) by (destruct Co' as [->|[->|[->| ->]]]; reflexivity).
    assert (De : deref h i = Ok None) by (destruct Co as [->|[->|[->| ->]]]; reflexivity).
    assert (De' : deref h' i' = Ok None) by (destruct Co' as [->|[->|[->| ->]]]; reflexivity).
    assert (E1 : value_GetInt64 X h' v' = value_GetInt64 X h v).
    { unfold value_GetInt64. rewrite Rd, Rd'. cbn [rbind]. rewrite Z, Z'.
      destruct Co as [->|[->|[->| ->]]], Co' as [->|[->|[->| ->]]]; reflexivity. }
    assert (E2 : value_GetUInt64 X h' v' = value_GetUInt64 X h v).
    { unfold value_GetUInt64. rewrite Rd, Rd'. cbn [rbind]. now rewrite Z, Z', De, De'. }
    assert (Ek : forall kd, value_GetIntKind kd X h' v' = value_GetIntKind kd X h v).
    { intros kd. destruct kd; cbn [value_GetIntKind]; unfold value_GetInt, value_GetInt8, value_GetInt16, value_GetInt32,
        value_GetUInt8, value_GetUInt16, value_GetUInt32; now rewrite ?E1, ?E2. }
    destruct (float32_of ltac:(congruence)) as (F1 & F2 & F3).
    unfold reads_same. split; [|split; [congruence|split; [auto|split; [auto|split; [auto|split; [congruence|split; [congruence|split; [|split; [|split; [|exact G]]]]]]]]]].
    - intros kd. unfold value_GetIntKindValue. now rewrite Ek.
    - unfold value_GetBool_content, value_GetBool. rewrite Rd, Rd'. cbn [rbind]. rewrite Z, Z'.
      destruct Co as [->|[->|[->| ->]]], Co' as [->|[->|[->| ->]]]; reflexivity.
    - unfold value_GetBoolValue. rewrite Rd, Rd'. cbn [rbind]. now rewrite Z, Z', De, De'.
    - unfold value_IsNil. rewrite Rd, Rd'. cbn [rbind]. now rewrite Z, Z'.
  Qed.

  Lemma values_same d : rep_obj NoNils (view h) F i d -> rep_obj NoNils (view h') F' i' d ->
    match d with DErr _ | DTexts _ => False | _ => True end -> reads_same X h v h' v'.
  Proof.
    intros Rp Rp' NT.
    assert (Oi : ok_iface h i) by (eapply (inv_val _ (reachable_Inv _ _ R)); eauto).
    assert (Oi' : ok_iface h' i') by (eapply (inv_val _ (reachable_Inv _ _ R')); eauto).
    destruct d as [|s|t|l|ds|es]; try contradiction.
    - assert (E : i = INil) by (inversion Rp; subst; [reflexivity|discriminate]).
      assert (E' : i' = INil) by (inversion Rp'; subst; [reflexivity|discriminate]).
      apply same_null; [now rewrite E|rewrite E; discriminate|now rewrite E'].
    - eapply same_scalar; eapply rep_scalar; eauto.
    - destruct (rep_arr_inv h _ F i _ Rp) as (a & la & Hi & _). destruct (rep_arr_inv h' _ F' i' _ Rp') as (a' & la' & Hi' & _).
      apply (same_container a a'); unfold container_of; [tauto..|].
      apply (arrays_alike X h v i h' v' i' R Hv R' Hv' a a' Hi Hi').
      unfold same_length. now rewrite (rep_len X h' _ F' R' _ _ _ Rp' Hi'), (rep_len X h _ F R _ _ _ Rp Hi).
    - destruct (rep_map_inv h _ F i _ Rp) as (a & la & Hi & _). destruct (rep_map_inv h' _ F' i' _ Rp') as (a' & la' & Hi' & _).
      apply (same_container a a'); unfold container_of; [tauto..|].
      apply (maps_alike X h v i h' v' i' R Hv R' Hv' a a' Hi Hi').
      unfold same_keys. now rewrite (rep_keys X h' _ F' R' _ _ _ Rp' Hi'), (rep_keys X h _ F R _ _ _ Rp Hi).
  Qed.
End Two.

Lemma typed_at p : forall d e, typed d -> doc_at d p = Some e -> typed e.
Proof.
  induction p as [|[k|n] p IH]; intros d e C E; cbn in *.
  - now injection E as ->.
  - destruct d as [| | | | |l]; try discriminate. destruct (dict_get l k) as [x|] eqn:G; [|discriminate].
    apply dict_get_In in G. apply (IH x e); auto. inversion C; subst.
    match goal with H : Forall _ _ |- _ => rewrite Forall_forall in H; apply (H _ G) end.
  - destruct d as [| | | |l|]; try discriminate. destruct (nth_error l n) as [x|] eqn:G; [|discriminate].
    apply nth_error_In in G. apply (IH x e); auto. inversion C; subst.
    match goal with H : Forall _ _ |- _ => rewrite Forall_forall in H; apply (H _ G) end.
Qed.

Lemma parse_again X h h' s m m' h1 h1' : reachable X h -> reachable X h' ->
  Parse X s h = Ok (GVal (Some m), h1) -> Parse X s h' = Ok (GVal (Some m'), h1') ->
  same_keys h1 h1' m m'
  /\ forall k p v, go X h1 m (PKey k) p = Ok (GVal (Some v)) ->
       exists v', go X h1' m' (PKey k) p = Ok (GVal (Some v')) /\ reads_same X h1 v h1' v'.
Proof.
  intros R R' E E'. destruct (parse_outcomes X h s R) as [P|[[e P]|(d & T & P)]].
  { congruence. } { destruct P as (_ & ? & P & _). congruence. }
  pose proof (proj1 (proj2 (parse_same X h X h' s R R') (GVal d)) P) as P'.
  destruct P as (h2 & m2 & P & R1 & _ & Rp & _). rewrite E in P. injection P as <- <-.
  destruct P' as (h2 & m2 & P' & R1' & _ & Rp' & _). rewrite E' in P'. injection P' as <- <-.
  assert (M : exists es, d = DMap es) by (inversion Rp; subst; eauto; [discriminate|destruct H; discriminate]).
  destruct M as [es ->]. split.
  - unfold same_keys. rewrite (rep_keys X h1' NoNils _ R1' _ m' _ Rp') by auto. now rewrite (rep_keys X h1 NoNils _ R1 _ m _ Rp) by auto.
  - intros k p v G.
    assert (TN : forall i, rep_obj NoNils (view h1) (new_in h) i DNull -> iface_IsNil X i = true).
    { intros i Ri. inversion Ri; subst; [reflexivity|discriminate]. }
    destruct (go_found X h1 _ _ R1 TN p (IMap m) m (DMap es) (PKey k) v Rp (co_map m) (ex_intro _ es eq_refl) G) as (i & e & Wv & Ri & At).
    destruct (go_rep X h1' _ R1' p (IMap m') m' (DMap es) (PKey k) e Rp' (co_map m') At) as (v' & j & G' & Wv' & Rj).
    exists v'. split; auto. eapply (values_same X h1 v i h1' v' j); eauto.
    apply typed_at with (p := PKey k :: p) (e := e) in T; auto. destruct e; auto; inversion T.
Qed.
