(** * Programs can see all of the content of objects: the result *)
From Coq Require Import Ascii String List NArith ZArith Bool Lia.
From Verif Require Import GoStr StrLemmas GoNum GoFloat Heap Common ValueModel ArrayModel MapModel JsonModel ParserModel
  GetterModel NamedModel PtrModel PtrListModel TimeModel SpecDict DictLemmas SpecWorld Inv World Reach ObjFacts SpecAlike ClientModel
  AlikeFacts AlikeRead AlikeTop SpecTell TellFacts TellTop TellAll.
Import ListNotations.
Local Open Scope nat_scope.

Definition fact_of (x : res (fact * list nat)) : option fact := match x with Ok (f, _) => Some f | _ => None end.
Lemma facts_one w T E i : i < length T ->
  map fact_of (notes w (kind_reads w (nth i T 0) i) (T ++ E))
  = map (fun c => Some (fst (rd w c))) (kind_reads w (nth i T 0) (nth i T 0)).
Proof.
  intros Hi. unfold kind_reads. set (a := nth i T 0).
  assert (Ha : forall F, nth i (T ++ F) 0 = a) by (intros F; now apply nth_front).
  destruct (w_map w a); [|destruct (w_arr w a); [|destruct (w_val w a); [|destruct (w_var w a)]]]; cbn [notes map rename_api fact_of note];
    unfold note, fact_of, at_T; rewrite ?Ha; try reflexivity.
  unfold rd at 2. cbn [spec_call fst out_reply snd]. now rewrite app_nil_r, Ha.
Qed.
Lemma table_front w cs T : exists E, table w cs T = T ++ E.
Proof.
  revert T. induction cs as [|c cs IH]; intros T; [exists []; now rewrite app_nil_r|]. cbn [table]. edestruct IH as [E ->]. rewrite <- app_assoc. eauto.
Qed.
Lemma combine_links (p : links) (t t' : list nat) : length t = length t' -> incl (combine t t') p -> Forall2 (fun a b => In (a, b) p) t t'.
Proof.
  revert t'. induction t as [|x t IH]; intros [|y t'] Ln Sub; try discriminate Ln; constructor.
  - apply Sub. now left.
  - apply IH; [now injection Ln|]. intros z Hz. apply Sub. now right.
Qed.
Lemma kind_reads_length w a i j : length (kind_reads w a i) = length (kind_reads w a j).
Proof. unfold kind_reads. destruct (w_map w a), (w_arr w a), (w_val w a), (w_var w a); reflexivity. Qed.

Section End_.
  Context (X : ext) (h h' : heap) (R : reachable X h) (R' : reachable X h').
  Let w := view h.
  Let w' := view h'.

  Lemma kind_reads_same a b i : same_kind w w' a b -> kind_reads w a i = kind_reads w' b i.
  Proof.
    intros K. pose proof (kinds_apart h a (reachable_Inv _ _ R)) as Ap. pose proof (kinds_apart h' b (reachable_Inv _ _ R')) as Ap'.
    fold w in Ap. fold w' in Ap'. revert Ap Ap' K. generalize w, w'. clear. intros w w' Ap Ap' K. unfold kind_reads.
    destruct K as [d d' M M'|l l' M M'|j j' M M'|s s' M M' T]; rewrite M, M' in *;
      destruct (w_map w a), (w_map w' b), (w_arr w a), (w_arr w' b), (w_val w a), (w_val w' b); try discriminate; auto; contradiction.
  Qed.
  Lemma read_at_same T T' is : Forall2 (same_kind w w') T T' -> Forall (fun i => i < length T) is -> read_at w T is = read_at w' T' is.
  Proof.
    intros F H. unfold read_at. induction H as [|i is Hi _ IH]; [reflexivity|]. cbn [flat_map]. rewrite IH. f_equal.
    apply kind_reads_same. now apply nth_kind.
  Qed.

  Lemma notes_kinds cs : forall T T', proper w cs T -> Forall2 (same_kind w w') T T' -> places T = places T' -> notes w cs T = notes w' cs T' ->
    Forall2 (same_kind w w') (table w cs T) (table w' cs T') /\ places (table w cs T) = places (table w' cs T').
  Proof.
    induction cs as [|c cs IH]; intros T T' P F Pl E; [cbn; auto|]. destruct P as (Rd & B & Ok1 & P).
    cbn [notes table] in *. cbv zeta in E.
    assert (Ok2 : ok_call w' (rename_api (at_T T') c)) by (exact (rename_ok X h h' R c T T' F Rd B Ok1)).
    set (r := rd w (rename_api (at_T T) c)) in *. set (r' := rd w' (rename_api (at_T T') c)) in *.
    injection E as E1 E2 E3. apply IH; auto.
    - apply Forall2_app; auto. apply (reply_kinds X h h' R R'); auto; try (now rewrite reads_rename). destruct c; try discriminate Rd; reflexivity.
    - rewrite !places_app. congruence.
  Qed.

  Lemma app_inj {A} (l m l' m' : list A) : length l = length l' -> l ++ m = l' ++ m' -> l = l' /\ m = m'.
  Proof.
    revert l'. induction l as [|x l IH]; intros [|y l'] Ln E; try discriminate Ln; auto. cbn in E. injection E as -> E. injection Ln as Ln.
    destruct (IH _ Ln E). split; congruence.
  Qed.

  Lemma read_told T T' is : Forall2 (same_kind w w') T T' -> Forall (fun i => i < length T) is -> forall E E',
    notes w (read_at w T is) (T ++ E) = notes w' (read_at w T is) (T' ++ E') ->
    Forall (fun i => told h h' (nth i T 0) (nth i T' 0)) is.
  Proof.
    intros F H. pose proof (F2_length _ _ _ F) as Ln.
    induction H as [|i is Hi _ IH]; intros E E' Q; [constructor|]. unfold read_at in Q. cbn [flat_map] in Q.
    rewrite !notes_app in Q. apply app_inj in Q as [Q1 Q2]; [|now rewrite !notes_length].
    pose proof (nth_kind h h' T T' i F Hi) as K.
    pose proof Q1 as Q3. rewrite (kind_reads_same _ _ i K) in Q3 at 2.
    apply (f_equal (map fact_of)) in Q3. rewrite !facts_one in Q3 by lia.
    constructor.
    - apply (told_by X h h' R R' _ _ K). apply (f_equal (map (fun o : option fact => match o with Some f => f | None => FBool true end))) in Q3.
      now rewrite !map_map in Q3.
    - destruct (read_one w T E i Hi) as [_ T1]. destruct (read_one w' T' E' i ltac:(lia)) as [_ T2].
      rewrite T1 in Q2. rewrite (kind_reads_same _ _ i K) in Q2 at 1. rewrite T2 in Q2. eapply IH; eauto.
  Qed.

  Lemma in_combine_nth (A B : list nat) i : i < length A -> length A = length B -> In (nth i A 0, nth i B 0) (combine A B).
  Proof. intros H Ln. rewrite <- combine_nth by auto. apply nth_In. rewrite combine_length. lia. Qed.
  Lemma combine_front (A B C D : list nat) : length A = length B -> combine (A ++ C) (B ++ D) = combine A B ++ combine C D.
  Proof. revert B. induction A as [|x A IH]; intros [|y B] Ln; try discriminate Ln; cbn; auto. rewrite IH; auto. Qed.
  Lemma combine_flat (is : list nat) (f g : nat -> list nat) i : In i is -> Forall (fun i => length (f i) = length (g i)) is ->
    incl (combine (f i) (g i)) (combine (flat_map f is) (flat_map g is)).
  Proof.
    induction is as [|j is IH]; intros H G; [contradiction H|]. inversion G as [|? ? Gj Gl]; subst. cbn [flat_map]. rewrite combine_front by auto.
    intros x Hx. apply in_app_iff. destruct H as [->|H]; [now left|right]. now apply IH.
  Qed.

  Lemma notes_alike k t t' : Forall2 (same_kind w w') t t' -> places t = places t' ->
    incl (flat_map (handles_in w) (grow w k t)) (grow w k t) ->
    notes w (rounds w (S k) t) t = notes w' (rounds w (S k) t) t' ->
    exists p, alike p w w' /\ Forall2 (fun a b => In (a, b) p) t t'.
  Proof.
    intros F Pl Sat Q.
    destruct (rounds_ok w (S k) t) as [PS TS]. destruct (rounds_ok w k t) as [Pk Tk].
    destruct (notes_kinds _ t t' PS F Pl Q) as [FS PlS]. rewrite TS in *.
    rewrite rounds_S in *. rewrite !notes_app in Q. apply app_inj in Q as [Q1 Q2]; [|now rewrite !notes_length].
    destruct (notes_kinds _ t t' Pk F Pl Q1) as [Fk Plk]. rewrite Tk in *. rewrite table_app in *.
    set (T := grow w k t) in *. set (T' := table w' (rounds w k t) t') in *.
    pose proof (F2_length _ _ _ Fk) as Ln.
    pose proof (seq_front T) as Sq. unfold read_all in *.
    pose proof (read_told T T' _ Fk Sq [] []) as Told. rewrite !app_nil_r in Told. specialize (Told Q2).
    pose proof (read_at_same T T' _ Fk Sq) as Rs.
    assert (ET' : table w' (read_at w T (seq 0 (length T))) T' = T' ++ flat_map (fun i => handles_in w' (nth i T' 0)) (seq 0 (length T))).
    { rewrite Rs. pose proof (read_many w' T' (seq 0 (length T))) as Z. destruct (Z ltac:(rewrite Ln; apply seq_front) []) as [_ Z']. now rewrite app_nil_r in Z'. }
    assert (ET : grow w (S k) t = T ++ flat_map (fun i => handles_in w (nth i T 0)) (seq 0 (length T))).
    { rewrite <- TS, Tk. destruct (read_many w T _ Sq []) as [_ Z']. now rewrite app_nil_r in Z'. }
    rewrite ET, ET' in *. set (H := flat_map _ _) in ET |- *. 
    set (p := combine (T ++ flat_map (fun i => handles_in w (nth i T 0)) (seq 0 (length T))) (T' ++ flat_map (fun i => handles_in w' (nth i T' 0)) (seq 0 (length T)))).
    exists p. assert (O2 : one_to_one p) by (apply places_one; auto).
    assert (Front : forall i, i < length T -> same_object p w w' (nth i T 0) (nth i T' 0)).
    { intros i Hi. rewrite Forall_forall in Told. pose proof (Told i ltac:(apply in_seq; lia)) as [_ G]. apply G.
      unfold p. rewrite combine_front by auto. intros x Hx. apply in_app_iff. right.
      eapply (combine_flat (seq 0 (length T)) (fun i => handles_in w (nth i T 0)) (fun i => handles_in w' (nth i T' 0))); [|  |exact Hx].
      - apply in_seq. lia.
      - apply Forall_forall. intros j Hj. now apply Told. }
    split; [split; auto|].
    - intros a b Hab. unfold p in Hab. rewrite combine_front in Hab by auto. apply in_app_iff in Hab as [Hab|Hab].
      + apply (In_nth _ _ (0, 0)) in Hab as (i & Hi & E). rewrite combine_nth in E by auto. rewrite combine_length in Hi. injection E as <- <-. apply Front. lia.
      + assert (Ia : In a T).
        { apply Sat. apply in_combine_l in Hab. now rewrite flat_map_nth in Hab. }
        apply (In_nth _ _ 0) in Ia as (j & Hj & Ea).
        assert (nth j T' 0 = b) as <-.
        { apply (O2 (nth j T 0) (nth j T' 0) a b); auto; unfold p; rewrite combine_front by auto; apply in_app_iff; [left|right]; auto.
          apply in_combine_nth; auto. }
        rewrite <- Ea. now apply Front.
    - destruct (table_front w (rounds w k t) t) as [E1 E1']. rewrite Tk in E1'. destruct (table_front w' (rounds w k t) t') as [E2 E2'].
      fold T' in E2'. pose proof (F2_length _ _ _ F) as L0.
      assert (Sub : incl (combine t t') p).
      { unfold p. rewrite combine_front by auto. rewrite E1', E2', combine_front by auto. intros x Hx. apply in_app_iff. left. apply in_app_iff. now left. }
      now apply combine_links.
  Qed.
End End_.

(** ** The program *)
Theorem recognises : forall X L h t, reachable X h -> exists n (c : client), forall h' t',
  reachable X h' -> same_handles (view h) (view h') t t' ->
  Forall fine (fst (play X L n c [] t' h')) /\ snd (play X L n c [] t' h') = h'
  /\ (fst (play X L n c [] t h) = fst (play X L n c [] t' h') ->
      exists p, alike p (view h) (view h') /\ Forall2 (fun a b => In (a, b) p) t t').
Proof.
  intros X L h t R. pose proof (reachable_Inv _ _ R) as I.
  destruct (Forall_dec (fun x => x < length h) (fun x => lt_dec x (length h)) t) as [Lt|Nl].
  - destruct (saturates (view h) (length h) (fun a x => handles_lt h a x I) t Lt) as [k Sat].
    set (cs := rounds (view h) (S k) t). exists (length cs), (checker (view h) cs t). intros h' t' R' [F Pl].
    assert (Pl' : places t = places t') by (apply places_start; auto; eapply F2_length; eauto).
    destruct (rounds_ok (view h) (S k) t) as [P _]. fold cs in P.
    destruct (play_other X L h h' R R' cs [] [] t t' eq_refl (Forall_nil _) P F Pl') as (A1 & A2 & _ & A4).
    pose proof (play_own X L h R cs [] [] t eq_refl (Forall_nil _) P) as Own. cbn [app] in *. unfold checker.
    split; [exact A1|split; [exact A2|]]. rewrite Own. cbn [fst]. intros E. symmetry in E. apply A4 in E as (E & _).
    eapply (notes_alike X h h' R R' k); eauto.
  - exists 0, (fun _ => None). intros h' t' R' [F _]. exfalso. apply Nl. apply Forall_forall. intros x Hx. eapply kinds_lt; eauto.
Qed.

Theorem exactly : forall X L h h' t t', prints_no_address X -> reachable X h -> reachable X h' -> same_handles (view h) (view h') t t' ->
  ((forall n (c : client), fst (play X L n c [] t h) = fst (play X L n c [] t' h'))
   <-> exists p, alike p (view h) (view h') /\ Forall2 (fun a b => In (a, b) p) t t').
Proof.
  intros X L h h' t t' N R R' S. split.
  - intros E. destruct (recognises X L h t R) as (n & c & G). destruct (G h' t' R' S) as (_ & _ & Z). auto.
  - intros (p & A & F) n c. eapply play_alike; eauto.
Qed.

(** Objects that are alike can be given in place of each other. *)
Theorem alike_handles : forall X h h' p t t', reachable X h -> reachable X h' -> alike p (view h) (view h') -> Forall2 (fun a b => In (a, b) p) t t' ->
  same_handles (view h) (view h') t t'.
Proof.
  intros X h h' p t t' R R' [O A] F. split.
  - clear O. induction F as [|a b t t' Hab _ IH]; constructor; auto. destruct (A a b Hab) as [d d' H H' _|l l' H H' _|i i' H H' _|s H H'];
      [eapply sk_map|eapply sk_arr|eapply sk_val|eapply sk_var]; eauto.
  - intros i j Hi Hj.
    assert (G : forall k, k < length t -> In (nth k t 0, nth k t' 0) p).
    { clear - F. induction F; intros [|k] Hk; cbn in *; try lia; auto. apply IHF. lia. }
    apply (O _ _ _ _ (G i Hi) (G j Hj)).
Qed.
Theorem recognises_ok : forall X L h t, reachable X h -> exists n (c : client), forall h' t',
  reachable X h' -> same_handles (view h) (view h') t t' ->
  (forall r, In r (fst (play X L n c [] t' h')) -> exists x, r = Ok x)
  /\ snd (play X L n c [] t' h') = h'
  /\ (fst (play X L n c [] t h) = fst (play X L n c [] t' h') ->
      exists p, alike p (view h) (view h') /\ Forall2 (fun a b => In (a, b) p) t t').
Proof.
  intros X L h t R. destruct (recognises X L h t R) as (n & c & G). exists n, c. intros h' t' R' S. destruct (G h' t' R' S) as (A & B).
  split; auto. rewrite Forall_forall in A. intros r Hr. apply A in Hr. destruct r; try contradiction. eauto.
Qed.
