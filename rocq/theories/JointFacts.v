(** * Programs that share objects *)
From Coq Require Import Ascii String List NArith ZArith Bool Lia.
From Verif Require Import GoStr StrLemmas GoNum GoFloat Heap Common ValueModel ArrayModel MapModel JsonModel ParserModel
  GetterModel NamedModel PtrModel PtrListModel TimeModel SpecDict DictLemmas SpecWorld Inv World Reach SpecAlike ClientModel TeamModel
  AlikeFacts AlikeRead AlikeWrite AlikeTop TeamFacts SpecJoint.
Import ListNotations.

(** ** Cells whose references are linked with themselves *)
Definition diagonal (p : links) : Prop := forall a b, In (a, b) p -> a = b.

Section Back.
  Context (q D D' : links) (O : one_to_one q) (J : incl D q) (Dd : diagonal D) (Dd' : diagonal D').
  Lemma back_in a b : In (a, b) q -> In (b, b) D -> a = b.
  Proof. intros H K. apply (proj2 (O _ _ _ _ H (J _ K))). reflexivity. Qed.
  Lemma back_handle o o' : same_handle q o o' -> same_handle D o' o' -> same_handle D' o' o' -> same_handle D' o o'.
  Proof. destruct o as [a|], o' as [b|]; cbn; auto; try tauto. intros H K K'. now rewrite (back_in _ _ H K). Qed.
  Lemma back_entry o o' : entry_rel q o o' -> entry_rel D o' o' -> entry_rel D' o' o' -> entry_rel D' o o'.
  Proof. destruct o, o'; cbn; auto; try tauto. apply back_handle. Qed.
  Lemma back_held i i' : same_held q i i' -> same_held D i' i' -> same_held D' i' i' -> same_held D' i i'.
  Proof.
    intros H K K'. inversion H; subst; auto;
      inversion K as [? N| | | | | | |]; subst; try discriminate N; inversion K' as [? N'| | | | | | |]; subst; try discriminate N';
      match goal with A : In (?a, ?b) q, B : In (?b, ?b) D |- _ => pose proof (back_in _ _ A B); subst a end; auto.
  Qed.
  Lemma back_cell c c' : cell_rel q c c' -> cell_rel D c' c' -> cell_rel D' c' c' -> cell_rel D' c c'.
  Proof.
    destruct c, c'; cbn; auto; try tauto.
    - apply back_held.
    - intros (A & B & C) (A1 & B1 & C1) (A2 & B2 & C2). split; auto. split; [now rewrite (back_in _ _ B B1)|].
      intros k. now apply back_entry.
    - intros H. induction H as [|x y l l' R F IH]; auto. intros K K'. inversion K; inversion K'; subst. constructor; auto. now apply back_handle.
  Qed.
End Back.

Lemma hidden_diagonal S h : diagonal (with_hidden (diag S) h h).
Proof.
  intros a b H. unfold with_hidden in H. apply in_app_or in H as [H|H].
  - now apply in_diag in H as [H _].
  - apply hidden_in in H as (m & n & mo & mo' & I & E & E' & -> & ->). apply in_diag in I as [<- _]. congruence.
Qed.
Lemma hidden_memory S h a b : In (a, b) (with_hidden (diag S) h h) -> exists x, In x S /\ In a (memory h x).
Proof.
  intros H. unfold with_hidden in H. apply in_app_or in H as [H|H].
  - apply in_diag in H as [_ H]. exists a. cbn; auto.
  - apply hidden_in in H as (m & n & mo & mo' & I & E & E' & -> & ->). apply in_diag in I as [_ I]. exists m. split; auto.
    unfold memory. rewrite E. cbn; auto.
Qed.

Section Share.
  Context (X : ext) (L : timelib) (NA : prints_no_address X).
  Context (h0 : heap) (members : list member) (R0 : reachable X h0).
  Hypothesis Hown : forall i c t S, nth_error members i = Some (c, t, S) -> self_contained (view h0) S /\ incl t S.
  Hypothesis Hleaves : forall i j c t S c' t' S', i <> j ->
    nth_error members i = Some (c, t, S) -> nth_error members j = Some (c', t', S') -> forall a, In a S' -> leaves X L h0 c t a.

  Let D S := with_hidden (diag S) h0 h0.

  Lemma left i j c t S c' t' S' n a b : i <> j -> nth_error members i = Some (c, t, S) -> nth_error members j = Some (c', t', S') ->
    In (a, b) (D S') -> nth_error (snd (alone X L n (start c t) h0)) a = nth_error h0 a.
  Proof.
    intros N E E' H. apply hidden_memory in H as (x & I & Mx). pose proof (Hleaves _ _ _ _ _ _ _ _ N E E' x I n a Mx) as K.
    rewrite alone_play in K. exact K.
  Qed.
  Lemma D_rel i c t S : nth_error members i = Some (c, t, S) -> hrel (D S) h0 h0.
  Proof. intros E. destruct (Hown _ _ _ _ E) as [C _]. apply alike_hrel; eauto using reachable_Inv, self_alike. Qed.

  Definition sharing (ns : nat -> nat) (gs : list prog) (h : heap) : Prop :=
    length gs = length members /\
    exists ps : nat -> links,
      (forall i g c t S, nth_error gs i = Some g -> nth_error members i = Some (c, t, S) ->
         hrel (ps i) h (snd (alone X L (ns i) (start c t) h0)) /\ twin (ps i) g (fst (alone X L (ns i) (start c t) h0)) /\ incl (D S) (ps i))
      /\ (forall i j c t S c' t' S', i <> j -> nth_error members i = Some (c, t, S) -> nth_error members j = Some (c', t', S') ->
            forall a b b', In (a, b) (ps i) -> In (a, b') (ps j) -> In (a, a) (D S) /\ In (a, a) (D S')).

  Lemma sharing_turn ns gs h i g : sharing ns gs h -> nth_error gs i = Some g ->
    sharing (fun j => if Nat.eqb i j then S (ns j) else ns j) (upd gs i (fst (turn X L g h))) (snd (turn X L g h)).
  Proof.
    intros (Len & ps & H & A) Eg. pose proof (nth_error_lt _ _ _ Eg) as Hi.
    split; [now rewrite upd_length|].
    destruct (nth_error members i) as [[[c t] S0]|] eqn:Em.
    2:{ apply nth_error_None in Em. lia. }
    destruct (H _ _ _ _ _ Eg Em) as (Hr & Tw & Id).
    destruct (turn_rel X L NA _ _ _ _ _ Hr Tw) as (q & G & Tw').
    assert (Al : exists ga ha, alone X L (S (ns i)) (start c t) h0 = (ga, ha)
              /\ grows (ps i) h (snd (alone X L (ns i) (start c t) h0)) q (snd (turn X L g h)) ha /\ twin q (fst (turn X L g h)) ga).
    { cbn [alone]. destruct (alone X L (ns i) (start c t) h0) as [ga ha]. cbn [fst snd] in *.
      destruct (turn X L ga ha) as [gb hb]. eauto. }
    destruct Al as (ga & ha & Ea & G' & Tw2). clear G Tw'.
    assert (Gs : forall j c' t' S', nth_error members j = Some (c', t', S') -> exists g', nth_error gs j = Some g').
    { intros j c' t' S' E. apply nth_error_lt in E. rewrite <- Len in E. destruct (nth_error gs j) eqn:Eq; eauto.
      apply nth_error_None in Eq. lia. }
    assert (Old : forall j c' t' S' a b, nth_error members j = Some (c', t', S') -> In (a, b) (ps j) -> a < length h).
    { intros j c' t' S' a b E I. destruct (Gs _ _ _ _ E) as [g' Eg']. destruct (H _ _ _ _ _ Eg' E) as ([_ Hrj] & _).
      destruct (Hrj _ _ I) as (x & y & Hx & _). eapply nth_error_lt; eauto. }
    exists (fun j => if Nat.eqb i j then q else ps j). split.
    - intros j g' c' t' S' Ej Emj. rewrite nth_error_upd in Ej by auto.
      destruct (Nat.eqb_spec i j) as [<-|N].
      + inversion Ej; subst g'. rewrite Em in Emj. inversion Emj; subst c' t' S'. rewrite Ea. cbn [fst snd].
        split; [exact (gr_rel _ _ _ _ _ _ G')|]. split; [exact Tw2|]. intros x Hx. apply (gr_incl _ _ _ _ _ _ G'). now apply Id.
      + destruct (H _ _ _ _ _ Ej Emj) as (Hrj & Twj & Idj). split; [|split; auto].
        split; [apply Hrj|]. intros a b I. destruct (proj2 Hrj _ _ I) as (x & y & Hx & Hy & Rxy).
        destruct (in_dec Nat.eq_dec a (map fst (ps i))) as [K|K].
        * apply in_map_iff in K as ([a' b'] & <- & K). cbn [fst] in *.
          destruct (A _ _ _ _ _ _ _ _ N Em Emj _ _ _ K I) as [Di Dj].
          assert (b = a') by (symmetry; apply (proj1 (proj1 Hrj _ _ _ _ (Idj _ Dj) I)); reflexivity). subst b.
          assert (Kq : In (a', a') q) by (apply (gr_incl _ _ _ _ _ _ G'), Id, Di).
          destruct (proj2 (gr_rel _ _ _ _ _ _ G') _ _ Kq) as (x' & z & Hx' & Hz & Rz).
          assert (Zi : nth_error ha a' = nth_error h0 a').
          { pose proof (left i j c t S0 c' t' S' (S (ns i)) a' a' N Em Emj Dj) as K'. rewrite Ea in K'. exact K'. }
          pose proof (left j i c' t' S' c t S0 (ns j) a' a' (not_eq_sym N) Emj Em Di) as Zj.
          assert (y = z) by congruence. subst z.
          destruct (proj2 (D_rel _ _ _ _ Em) _ _ Di) as (u & u' & Hu & Hu' & Ru).
          destruct (proj2 (D_rel _ _ _ _ Emj) _ _ Dj) as (v & v' & Hv & Hv' & Rv).
          assert (u = y /\ u' = y /\ v = y /\ v' = y) as (-> & -> & -> & ->) by (repeat split; congruence).
          exists x', y. split; [exact Hx'|]. split; [exact Hy|].
          apply (cell_rel_incl (D S')); [exact Idj|].
          apply (back_cell q (D S0) (D S') (proj1 (gr_rel _ _ _ _ _ _ G'))); auto.
          intros e He. apply (gr_incl _ _ _ _ _ _ G'). now apply Id.
        * exists x, y. split; [|split; auto]. rewrite (gr_frame _ _ _ _ _ _ G'); auto; [eapply nth_error_lt; eauto|].
          intros b' K'. apply K. apply in_map_iff. exists (a, b'). auto.
    - intros j k cj tj Sj ck tk Sk N Ej Ek a b b' I I'.
      destruct (Nat.eqb_spec i j) as [<-|N1]; destruct (Nat.eqb_spec i k) as [<-|N2]; try congruence.
      + destruct (gr_new _ _ _ _ _ _ G' _ _ I) as [K|[K _]]; [exact (A _ _ _ _ _ _ _ _ N Ej Ek _ _ _ K I')|].
        pose proof (Old _ _ _ _ _ _ Ek I'). lia.
      + destruct (gr_new _ _ _ _ _ _ G' _ _ I') as [K|[K _]]; [exact (A _ _ _ _ _ _ _ _ N Ej Ek _ _ _ I K)|].
        pose proof (Old _ _ _ _ _ _ Ej I). lia.
      + exact (A _ _ _ _ _ _ _ _ N Ej Ek _ _ _ I I').
  Qed.

  Lemma sharing_begin : sharing (fun _ => 0) (map begin members) h0.
  Proof.
    split; [apply map_length|].
    exists (fun i => match nth_error members i with Some (_, _, S1) => D S1 | None => [] end).
    split.
    - intros i g c t S Eg Em. rewrite Em. destruct (Hown _ _ _ _ Em) as [C I].
      rewrite nth_error_map, Em in Eg. inversion Eg; subst. cbn [alone fst snd].
      split; [eapply D_rel; eauto|]. split; [|apply incl_refl]. split; auto. cbn.
      eapply F2_linked_incl; [|apply table_diag; eauto]. unfold D, with_hidden. intros x Hx. apply in_or_app; auto.
    - intros i j c t S c' t' S' N E E' a b b' I I'. rewrite E in I. rewrite E' in I'.
      pose proof (hidden_diagonal _ _ _ _ I). pose proof (hidden_diagonal _ _ _ _ I'). subst. auto.
  Qed.

  Lemma team_length sc : forall gs h, length (fst (team X L sc gs h)) = length gs.
  Proof.
    induction sc as [|x sc IH]; intros gs0 h1; cbn [team]; auto.
    destruct (nth_error gs0 x) as [gx|]; [|apply IH]. destruct (turn X L gx h1). rewrite IH. apply upd_length.
  Qed.
  Lemma sharing_team sched : forall ns gs h, sharing ns gs h ->
    sharing (fun j => count_occ Nat.eq_dec sched j + ns j) (fst (team X L sched gs h)) (snd (team X L sched gs h)).
  Proof.
    induction sched as [|i sched IH]; intros ns gs h H; cbn [team]; [exact H|].
    destruct (nth_error gs i) as [g|] eqn:E.
    - pose proof (sharing_turn _ _ _ _ _ H E) as H1. apply IH in H1. destruct (turn X L g h) as [g' h'] eqn:T. cbn [fst snd] in H1.
      destruct H1 as (Len & ps & H1 & A). split; auto. exists ps. split; auto.
      intros j gj c t S Ej Em. specialize (H1 j gj c t S Ej Em). cbn [count_occ].
      destruct (Nat.eqb_spec i j), (Nat.eq_dec i j); try congruence. rewrite Nat.add_succ_r in H1. exact H1.
    - apply IH in H. destruct H as (Len & ps & H1 & A). split; auto. exists ps. split; auto.
      intros j gj c t S Ej Em. specialize (H1 j gj c t S Ej Em). cbn [count_occ].
      destruct (Nat.eq_dec i j) as [<-|N]; auto. exfalso.
      apply nth_error_lt in Ej. rewrite team_length in Ej. apply nth_error_None in E. lia.
  Qed.

  Lemma shared_unnoticed sched i c t S : nth_error members i = Some (c, t, S) ->
    exists g, nth_error (fst (team X L sched (map begin members) h0)) i = Some g
      /\ g_seen g = fst (play X L (count_occ Nat.eq_dec sched i) c [] t h0)
      /\ forall n d, fst (play X L n d [] t (snd (team X L sched (map begin members) h0)))
                     = fst (play X L n d [] t (snd (play X L (count_occ Nat.eq_dec sched i) c [] t h0))).
  Proof.
    intros Em. destruct (sharing_team sched _ _ _ sharing_begin) as (Len & ps & H & _).
    destruct (nth_error (fst (team X L sched (map begin members) h0)) i) as [g|] eqn:E.
    2:{ apply nth_error_None in E. apply nth_error_lt in Em. lia. }
    exists g. split; auto. destruct (H _ _ _ _ _ E Em) as (Hr & Tw & Id). rewrite Nat.add_0_r in Tw, Hr.
    split; [rewrite (tw_seen _ _ _ Tw), alone_play; reflexivity|].
    intros n d. rewrite (alone_play X L (count_occ Nat.eq_dec sched i) c [] t h0). cbn [snd].
    apply (proj1 (play_rel X L NA n d [] _ _ _ _ _ Hr (F2_linked_incl _ _ _ _ Id (F2_linked_incl _ _ _ _
      (fun x Hx => in_or_app _ _ x (or_introl Hx)) (table_diag S t (proj2 (Hown _ _ _ _ Em))))))).
  Qed.
End Share.

Lemma joint_unnoticed X L h members sched i c t S : prints_no_address X -> reachable X h -> fair_team X L h members ->
  nth_error members i = Some (c, t, S) ->
  exists g, nth_error (fst (team X L sched (map begin members) h)) i = Some g
    /\ g_seen g = fst (play X L (count_occ Nat.eq_dec sched i) c [] t h)
    /\ forall n d, fst (play X L n d [] t (snd (team X L sched (map begin members) h)))
                   = fst (play X L n d [] t (snd (play X L (count_occ Nat.eq_dec sched i) c [] t h))).
Proof. intros NA R [A B] E. eapply shared_unnoticed; eauto. Qed.

(** ** The teams of C78 *)
Lemma play_keeps X L n c : reader c -> forall s t h, kept (length h) h (snd (play X L n c s t h)).
Proof.
  intros Rd. induction n as [|n IH]; intros s t h a Ha; cbn [play]; auto.
  destruct (c s) as [q|] eqn:C; auto. destruct (forallb _ _); auto.
  destruct (ask X L (rename (fun i => nth i t 0) q) h) as [[r k]| | |] eqn:Ea; auto.
  assert (K : only_reads (rename (fun i => nth i t 0) q) = true).
  { apply Rd in C. destruct q as [[]| | | | | | | | | | | | | | | | | | | | | | | | | |]; auto. }
  pose proof (ask_keeps _ _ _ _ _ _ K Ea a Ha) as E1. rewrite <- E1.
  apply IH. apply nth_error_Some. rewrite E1. now apply nth_error_Some.
Qed.

Lemma memory_old X h a x S : reachable X h -> self_contained (view h) S -> In a S -> In x (memory h a) ->
  In (x, x) (with_hidden (diag S) h h) /\ x < length h.
Proof.
  intros R C I Hx. assert (K : In (x, x) (with_hidden (diag S) h h)).
  { unfold with_hidden. apply in_or_app. unfold memory in Hx. destruct Hx as [<-|Hx]; [left; now apply in_diag|]. right.
    destruct (nth_error h a) as [[| |mo|]|] eqn:E; try destruct Hx as [<-|[]]; try contradiction.
    apply hidden_in. exists a, a, mo, mo. repeat split; auto. now apply in_diag. }
  split; auto. pose proof (alike_hrel _ _ _ (reachable_Inv _ _ R) (reachable_Inv _ _ R) (self_alike _ _ C)) as [_ H].
  destruct (H _ _ K) as (c & c' & Hc & _). eapply nth_error_lt; eauto.
Qed.

Lemma good_fair X L h members : prints_no_address X -> reachable X h -> good_team h members -> fair_team X L h members.
Proof.
  intros NA R [A B]. split; auto. intros i j c t S c' t' S' N E E' a I n x Hx.
  destruct (A _ _ _ _ E) as [C T]. destruct (A _ _ _ _ E') as [C' _].
  destruct (memory_old X h a x S' R C' I Hx) as [K Old].
  destruct (B _ _ _ _ _ _ _ _ N E E') as [Ap|[Rd _]]; [|now apply play_keeps].
  pose proof (alike_hrel _ _ _ (reachable_Inv _ _ R) (reachable_Inv _ _ R) (self_alike _ _ C)) as H.
  assert (F : Forall2 (linked (with_hidden (diag S) h h)) t t).
  { eapply F2_linked_incl; [|apply table_diag; eauto]. unfold with_hidden. intros y Hy. apply in_or_app; auto. }
  destruct (play_rel X L NA n c [] _ t t h h H F) as [_ (q & G)].
  apply (gr_frame _ _ _ _ _ _ G); auto. intros b Kb. eapply (hidden_apart X h R S S'); eauto.
Qed.
