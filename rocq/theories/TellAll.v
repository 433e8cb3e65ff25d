(** * Programs can see all of the content of objects: reading everything that can be reached *)
From Coq Require Import Ascii String List NArith ZArith Bool Lia.
From Verif Require Import GoStr StrLemmas GoNum GoFloat Heap Common ValueModel ArrayModel MapModel JsonModel ParserModel
  GetterModel NamedModel PtrModel PtrListModel TimeModel SpecDict DictLemmas SpecWorld Inv World Reach ObjFacts SpecAlike ClientModel
  AlikeFacts AlikeRead AlikeTop SpecTell TellFacts TellTop.
Import ListNotations.
Local Open Scope nat_scope.

(** ** One round: every object of the table is read *)
Definition read_at (w : world) (T : list nat) (is : list nat) : list api := flat_map (fun i => kind_reads w (nth i T 0) i) is.
Definition read_all (w : world) (T : list nat) : list api := read_at w T (seq 0 (length T)).
Definition step (w : world) (T : list nat) : list nat := T ++ flat_map (handles_in w) T.

Lemma nth_front T E i : i < length T -> nth i (T ++ E) 0 = nth i T 0.
Proof. intros H. now apply app_nth1. Qed.
Lemma read_one w T E i : i < length T -> let a := nth i T 0 in
  proper w (kind_reads w a i) (T ++ E) /\ table w (kind_reads w a i) (T ++ E) = T ++ E ++ handles_in w a.
Proof.
  intros Hi a. unfold kind_reads, handles_in.
  destruct (w_map w a) as [d|] eqn:M.
  - assert (Hm : forall F, has (w_map w) (nth i ((T ++ E) ++ F) 0)).
    { intros F. rewrite <- app_assoc, nth_front by auto. exists d. exact M. }
    cbn [proper table reads api_handles rename_api ok_call]. unfold at_T, rd. cbn [spec_call fst out_reply snd]. unfold map_at.
    pose proof (Hm []) as Hm0. rewrite app_nil_r in Hm0. rewrite !app_nil_r. rewrite (nth_front T E) by auto. fold a. rewrite M. cbn [the].
    repeat split; auto.
    + constructor; auto. rewrite app_length. lia.
    + exists d. exact M.
    + constructor; auto. rewrite app_length. lia.
    + exists d. exact M.
    + now rewrite app_assoc.
  - destruct (w_arr w a) as [l|] eqn:A; [|destruct (w_val w a) as [j|] eqn:V; [|destruct (w_var w a) as [s|] eqn:P]];
      cbn [proper table reads api_handles rename_api ok_call]; unfold at_T, rd; cbn [spec_call fst out_reply snd]; unfold arr_at;
      rewrite ?(nth_front T E) by auto; fold a; rewrite ?A, ?V, ?P; cbn [the]; (split; [|now rewrite ?app_nil_r, ?app_assoc]); repeat split; auto;
      try (constructor; auto; rewrite app_length; lia); eexists; eassumption.
Qed.
Lemma read_many w T is : Forall (fun i => i < length T) is -> forall E,
  proper w (read_at w T is) (T ++ E) /\ table w (read_at w T is) (T ++ E) = T ++ E ++ flat_map (fun i => handles_in w (nth i T 0)) is.
Proof.
  induction 1 as [|i is Hi _ IH]; intros E; [cbn; rewrite !app_nil_r; auto|]. unfold read_at. cbn [flat_map]. rewrite proper_app, table_app.
  destruct (read_one w T E i Hi) as [P Q]. rewrite Q. destruct (IH (E ++ handles_in w (nth i T 0))) as [P' Q']. rewrite <- !app_assoc in Q'.
  repeat split; auto.
Qed.
Lemma seq_front (T : list nat) : Forall (fun i => i < length T) (seq 0 (length T)).
Proof. apply Forall_forall. intros i H. apply in_seq in H. lia. Qed.
Lemma flat_map_nth {B} (f : nat -> list B) (T : list nat) : flat_map (fun i => f (nth i T 0)) (seq 0 (length T)) = flat_map f T.
Proof.
  induction T as [|x T IH]; [reflexivity|]. cbn [length seq flat_map nth]. f_equal. rewrite <- IH.
  rewrite <- seq_shift, !flat_map_concat_map, map_map. reflexivity.
Qed.
Lemma read_all_ok w T : proper w (read_all w T) T /\ table w (read_all w T) T = step w T.
Proof.
  destruct (read_many w T _ (seq_front T) []) as [P Q]. rewrite app_nil_r in P, Q. split; auto. unfold read_all. rewrite Q. cbn [app]. unfold step.
  f_equal. apply flat_map_nth.
Qed.

(** ** Rounds *)
Fixpoint rounds (w : world) (k : nat) (T : list nat) : list api :=
  match k with 0 => [] | S k => read_all w T ++ rounds w k (step w T) end.
Fixpoint grow (w : world) (k : nat) (T : list nat) : list nat := match k with 0 => T | S k => grow w k (step w T) end.
Lemma rounds_ok w k : forall T, proper w (rounds w k T) T /\ table w (rounds w k T) T = grow w k T.
Proof.
  induction k as [|k IH]; intros T; [cbn; auto|]. cbn [rounds grow]. rewrite proper_app, table_app.
  destruct (read_all_ok w T) as [P Q]. rewrite Q. destruct (IH (step w T)). auto.
Qed.
Lemma rounds_S w k : forall T, rounds w (S k) T = rounds w k T ++ read_all w (grow w k T).
Proof.
  induction k as [|k IH]; intros T; [cbn; now rewrite app_nil_r|]. change (rounds w (S (S k)) T) with (read_all w T ++ rounds w (S k) (step w T)).
  rewrite IH. cbn [rounds grow]. now rewrite app_assoc.
Qed.

(** *** After enough rounds there is nothing new *)
Lemma nodup_incl_len (A B : list nat) : incl A B -> length (nodup Nat.eq_dec A) <= length (nodup Nat.eq_dec B).
Proof.
  intros H. apply NoDup_incl_length; [apply NoDup_nodup|]. intros x Hx. apply nodup_In. apply H. now apply nodup_In in Hx.
Qed.
Lemma nodup_new (A B : list nat) x : incl A B -> In x B -> ~ In x A -> length (nodup Nat.eq_dec A) < length (nodup Nat.eq_dec B).
Proof.
  intros H Hx N. apply (NoDup_incl_length (l := x :: nodup Nat.eq_dec A) (l' := nodup Nat.eq_dec B)).
  - constructor; [now rewrite nodup_In|apply NoDup_nodup].
  - intros y [<-|Hy]; apply nodup_In; auto. apply H. now apply nodup_In in Hy.
Qed.
Lemma new_or_not (A B : list nat) : incl B A \/ exists x, In x B /\ ~ In x A.
Proof.
  induction B as [|x B IH]; [left; intros x []|]. destruct (in_dec Nat.eq_dec x A) as [Hx|Hx].
  - destruct IH as [IH|(y & Hy & N)]; [left|right; exists y; cbn; auto]. intros y [<-|Hy]; auto.
  - right. exists x. cbn. auto.
Qed.
Lemma saturates w N : (forall a x, In x (handles_in w a) -> x < N) -> forall T, Forall (fun x => x < N) T ->
  exists k, incl (flat_map (handles_in w) (grow w k T)) (grow w k T).
Proof.
  intros B. enough (G : forall m T, Forall (fun x => x < N) T -> N <= m + length (nodup Nat.eq_dec T) ->
    exists k, incl (flat_map (handles_in w) (grow w k T)) (grow w k T)) by (intros T H; apply (G N T H); lia).
  induction m as [|m IH]; intros T H Q.
  - exists 0. cbn [grow]. destruct (new_or_not T (flat_map (handles_in w) T)) as [|(x & Hx & Nx)]; auto. exfalso.
    assert (x < N) by (apply in_flat_map in Hx as (a & _ & Hx); eauto).
    pose proof (nodup_new T (x :: T) x ltac:(intros y; cbn; auto) ltac:(cbn; auto) Nx) as Z.
    assert (incl (x :: T) (seq 0 N)) as Y.
    { intros y [<-|Hy]; apply in_seq; [lia|]. rewrite Forall_forall in H. specialize (H _ Hy). lia. }
    apply nodup_incl_len in Y. rewrite (nodup_fixed_point Nat.eq_dec (seq_NoDup N 0)), seq_length in Y. lia.
  - destruct (new_or_not T (flat_map (handles_in w) T)) as [Y|(x & Hx & Nx)]; [exists 0; exact Y|].
    assert (Fs : Forall (fun x => x < N) (step w T)).
    { apply Forall_app. split; auto. apply Forall_forall. intros y Hy. apply in_flat_map in Hy as (a & _ & Hy). eauto. }
    assert (Z : length (nodup Nat.eq_dec T) < length (nodup Nat.eq_dec (step w T))).
    { apply (nodup_new _ _ x); auto; unfold step; [intros y Hy|]; apply in_app_iff; auto. }
    destruct (IH (step w T) Fs ltac:(lia)) as [k Hk]. exists (S k). exact Hk.
Qed.

(** Handles are below the next one. *)
Lemma nth_lt (h : heap) n c : nth_error h n = Some c -> n < length h.
Proof. intros H. apply nth_error_Some. congruence. Qed.
Lemma kind_lt h w a b : same_kind (view h) w a b -> a < length h.
Proof.
  intros [d d' H _|l l' H _|i i' H _|s s' H _ _]; cbn in H; destruct (nth_error h a) eqn:E; try discriminate H; eapply nth_lt; eauto.
Qed.
Lemma kinds_lt h w l l' x : Forall2 (same_kind (view h) w) l l' -> In x l -> x < length h.
Proof. induction 1 as [|a b l l' K _ IH]; [easy|]. intros [<-|H]; auto. eapply kind_lt; eauto. Qed.
Lemma handles_lt h a x : Inv h -> In x (handles_in (view h) a) -> x < length h.
Proof.
  intros I H. unfold handles_in in H.
  assert (G : forall l, Forall (ok_value_handle (view h)) l -> In x (ohs l) -> x < length h).
  { intros l O Hx. eapply kinds_lt; [|exact Hx]. apply (ohs_kinds _ _ l l O O eq_refl). }
  destruct (w_map (view h) a) as [d|] eqn:M; [|destruct (w_arr (view h) a) as [l|] eqn:A; [|destruct (w_val (view h) a) as [i|] eqn:V; [|contradiction H]]].
  - apply (G (dict_values d)); auto. eapply map_closed; eauto.
  - apply (G l); auto. eapply arr_closed; eauto.
  - pose proof (val_closed _ _ _ I V) as O. eapply kinds_lt; [|exact H]. exact (held_kinds _ _ i i O O eq_refl).
Qed.

(** ** What equal replies mean *)
Section Means.
  Context (X : ext) (h h' : heap) (R : reachable X h) (R' : reachable X h').
  Let w := view h.
  Let w' := view h'.

  Definition told_in (w w' : world) (a b : nat) : Prop :=
    length (handles_in w a) = length (handles_in w' b)
    /\ forall p, incl (combine (handles_in w a) (handles_in w' b)) p -> same_object p w w' a b.
  Definition told := told_in w w'.

  Lemma olists_told p l l' : olist_zero l = olist_zero l' -> length (ohs l) = length (ohs l')
    /\ (incl (combine (ohs l) (ohs l')) p -> Forall2 (same_handle p) l l').
  Proof.
    revert l'. induction l as [|o l IH]; intros [|o' l'] E; try discriminate E; [split; auto; constructor|].
    cbn in E. injection E as E1 E2. destruct (IH _ E2) as [Ln IH']. destruct o as [v|], o' as [v'|]; try discriminate E1; cbn.
    - split; [now f_equal|]. intros Hp. constructor; [apply Hp; cbn; auto|]. apply IH'. intros x Hx. apply Hp. cbn; auto.
    - split; auto. intros Hp. constructor; cbn; auto.
  Qed.
  Lemma held_told i i' : rename_iface zero i = rename_iface zero i' -> length (iface_handles i) = length (iface_handles i')
    /\ forall p, incl (combine (iface_handles i) (iface_handles i')) p -> same_held p i i'.
  Proof.
    intros E.
    destruct i as [| |t [p0|]|m|[m|]|a|[a|]|v|[v|]| | |[?|]|[?|]| |[?|]| | |[?|]|[?|]|? [?|]],
             i' as [| |t' [p'|]|m'|[m'|]|a'|[a'|]|v'|[v'|]| | |[?|]|[?|]| |[?|]| | |[?|]|[?|]|? [?|]]; try discriminate E; cbn [iface_handles oh length]; (split; [reflexivity|]);
      intros p Hp; try (injection E; intros; subst);
      first [ now constructor | now constructor; apply Hp; cbn; auto ].
  Qed.
  Lemma dicts_told p (d d' : dict (option nat)) : dict_keys d = dict_keys d' -> Forall2 (same_handle p) (dict_values d) (dict_values d') ->
    Forall2 (fun x y => fst x = fst y /\ same_handle p (snd x) (snd y)) d d'.
  Proof.
    revert d'. induction d as [|[k o] d IH]; intros [|[k' o'] d'] E F; try discriminate E; constructor; inversion F; subst; injection E as E1 E2; auto.
  Qed.
  Lemma told_by a b : same_kind w w' a b ->
    map (fun c => fst (rd w c)) (kind_reads w a a) = map (fun c => fst (rd w' c)) (kind_reads w' b b) -> told a b.
  Proof.
    intros K E. pose proof (kinds_apart h a (reachable_Inv _ _ R)) as Ap. pose proof (kinds_apart h' b (reachable_Inv _ _ R')) as Ap'.
    unfold told. fold w in Ap. fold w' in Ap'. revert Ap Ap' K E. generalize w, w'. clear. intros w w' Ap Ap' K E.
    change (told_in w w' a b). unfold told_in, handles_in, kind_reads in *. destruct K as [d d' M M'|l l' A A'|i i' V V'|s s' P P' T].
    - rewrite M, M' in *. cbn in E. unfold map_at in E. rewrite M, M' in E. cbn [the] in E. injection E as E1 E2.
      split; [apply (olists_told [] _ _ E2)|]. intros p Hp. eapply so_map; eauto. apply dicts_told; auto. now apply olists_told.
    - rewrite A, A' in *. destruct (w_map w a); [contradiction Ap|]. destruct (w_map w' b); [contradiction Ap'|].
      cbn in E. unfold arr_at in E. rewrite A, A' in E. cbn [the] in E. injection E as E2.
      split; [apply (olists_told [] _ _ E2)|]. intros p Hp. eapply so_arr; eauto. now apply olists_told.
    - rewrite V, V' in *. destruct (w_map w a); [destruct (w_arr w a); contradiction Ap|]. destruct (w_map w' b); [destruct (w_arr w' b); contradiction Ap'|].
      destruct (w_arr w a); [contradiction Ap|]. destruct (w_arr w' b); [contradiction Ap'|].
      cbn in E. rewrite V, V' in E. cbn [the] in E. injection E as E2.
      destruct (held_told _ _ E2) as [Ln G]. split; auto. intros p Hp. eapply so_val; eauto.
    - rewrite P, P' in *.
      destruct (w_map w a); [destruct (w_arr w a), (w_val w a); contradiction Ap|]. destruct (w_map w' b); [destruct (w_arr w' b), (w_val w' b); contradiction Ap'|].
      destruct (w_arr w a); [destruct (w_val w a); contradiction Ap|]. destruct (w_arr w' b); [destruct (w_val w' b); contradiction Ap'|].
      destruct (w_val w a); [contradiction Ap|]. destruct (w_val w' b); [contradiction Ap'|].
      cbn in E. rewrite P, P' in E. cbn [the] in E. injection E as <-.
      split; auto. intros p Hp. eapply so_var; eauto.
  Qed.
End Means.
